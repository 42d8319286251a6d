(** Names, namespaces and attributes in the result. *)
From Coq Require Import String.
From Verif.Model Require Import Base Containers Attrs Text Uri Stream XSort XOutput.
From Verif.Spec Require Import XOutputSpec.
From Verif.Proof Require Import Tac ContainersProof AttrsProof TextProof StreamProof XOutputText XOutputProof.
From Coq Require Import List Lia DecimalNat.
Import ListNotations.
Open Scope Z_scope.

(** * Attributes *)
Fixpoint aput (u l q v : str) (atts : list attr) : list attr :=
  match atts with
  | [] => [Attr u l q [] v]
  | a :: r => if is_named u l a then set_value v a :: r else a :: aput u l q v r
  end.
Lemma aput_replace : forall u l q v atts, at_apply (AAddOrReplace (Attr u l q [] v)) atts = Some (aput u l q v atts).
Proof.
  intros u l q v atts. cbn [at_apply a_uri a_local a_value]. f_equal. induction atts as [|a r IH]; [reflexivity|]. unfold index_of in *. cbn [find_pos aput]. destruct (is_named u l a); [reflexivity|]. destruct (find_pos (is_named u l) r); cbn [update app]; rewrite <- IH; reflexivity.
Qed.
Lemma aput_index : forall u l q v atts, (forall a, In a atts -> (a_qname a = q <-> is_named u l a = true)) -> exists i, index_of_q (aput u l q [] atts) q = Some i /\ (i < length (aput u l q [] atts))%nat /\ update (aput u l q [] atts) i (set_value v) = aput u l q v atts.
Proof.
  unfold index_of_q. intros u l q v atts. induction atts as [|a r IH]; intros H; cbn [aput].
  - exists O. cbn [find_pos]. unfold has_qname. cbn [a_qname]. rewrite (proj2 (str_eqb_true q q) eq_refl). split; [reflexivity|]. split; [cbn; lia|reflexivity].
  - destruct (is_named u l a) eqn:N.
    + exists O. cbn [find_pos]. unfold has_qname. cbn [a_qname set_value]. rewrite (proj2 (str_eqb_true (a_qname a) q)) by (apply H; [left; reflexivity|exact N]). split; [reflexivity|]. split; [cbn; lia|reflexivity].
    + destruct IH as (i & E & L & U); [intros b B; apply H; right; exact B|]. exists (S i). cbn [find_pos]. unfold has_qname at 1. destruct (str_eqb (a_qname a) q) eqn:Q; [apply str_eqb_true in Q; apply H in Q; [congruence|left; reflexivity]|]. rewrite E. split; [reflexivity|]. split; [cbn; lia|]. cbn [update]. rewrite U. reflexivity.
Qed.
Lemma aput_in : forall u l q v atts a, In a (aput u l q v atts) -> (exists b, In b atts /\ a_uri a = a_uri b /\ a_local a = a_local b /\ a_qname a = a_qname b) \/ (a_uri a = u /\ a_local a = l /\ a_qname a = q).
Proof.
  intros u l q v atts a. induction atts as [|b r IH]; cbn [aput In]; [intros [<-|[]]; auto|]. destruct (is_named u l b).
  - intros [<-|I]; left; [exists b|exists a]; cbn; auto.
  - intros [<-|I]; [left; exists b; auto|]. destruct (IH I) as [(c & C1 & C2)|C]; [left; exists c; auto|auto].
Qed.
Definition view (a : attr) : str * str * str := (a_uri a, a_local a, a_value a).
Lemma aput_view : forall u l q v atts, map view (aput u l q v atts) = put u l v (map view atts).
Proof.
  intros u l q v atts. induction atts as [|b r IH]; [reflexivity|]. cbn [aput map put view]. unfold is_named. destruct (str_eqb (a_uri b) u && str_eqb (a_local b) l); [reflexivity|]. cbn [map]. rewrite IH. reflexivity.
Qed.
Lemma aput_keys : forall u l q v atts, NoDup (keys atts) -> NoDup (keys (aput u l q v atts)).
Proof.
  intros u l q v atts N. pose proof (replace_nodup (Attr u l q [] v) atts N) as R. cbn [at_run] in R. rewrite aput_replace in R. exact R.
Qed.

(** * Qualified names *)
Lemma plain_find : forall s, plain_name s -> find_char 58 s = None.
Proof. intros s H. apply find_char_none. exact H. Qed.
Lemma prefixed_find : forall p l, plain_name p -> find_char 58 (p ++ 58 :: l) = Some (length p).
Proof. intros p l H. apply find_char_some. exists p, l. auto. Qed.
Lemma make_name_parts : forall p l, plain_name p -> plain_name l -> prefix_of (make_name p l) = p /\ local_of (make_name p l) = l.
Proof.
  intros p l P L. unfold prefix_of, local_of, make_name. destruct p as [|c p]; [rewrite (plain_find l L); auto|]. change ((c :: p) ++ [58] ++ l) with ((c :: p) ++ 58 :: l). rewrite (prefixed_find (c :: p) l P). split.
  - rewrite firstn_app, Nat.sub_diag, firstn_all, firstn_O, app_nil_r. reflexivity.
  - rewrite skipn_app. rewrite skipn_all2 by lia. replace (S (length (c :: p)) - length (c :: p))%nat with 1%nat by lia. reflexivity.
Qed.
Lemma auto_plain : forall k, plain_name (auto_ns k).
Proof.
  intros k H. unfold auto_ns in H. apply in_app_or in H. destruct H as [H|H]; [cbn in H; repeat (destruct H as [H|H]; [discriminate|]); exact H|]. pose proof (uint_digits_range (Nat.to_uint k)) as R. rewrite forallb_forall in R. specialize (R 58 H). discriminate.
Qed.
Lemma auto_ns_inj : forall i j, auto_ns i = auto_ns j -> i = j.
Proof. intros i j H. unfold auto_ns in H. apply app_inv_head in H. apply Unsigned.to_uint_inj. apply uint_digits_inj. exact H. Qed.

(** * Bindings *)
Section Bindings.
  Variable r : str -> str.
  Definition good (a : nat -> str) (n : nat) (b : str * str) : Prop :=
    snd b <> [] /\ ((own_prefix (fst b) /\ r (fst b) = snd b) \/ (exists k, (k < n)%nat /\ fst b = auto_ns k /\ snd b = a k)).
  Lemma good_one : forall a n p u u', good a n (p, u) -> good a n (p, u') -> u = u'.
  Proof.
    intros a n p u u' (_ & [(O1 & R1)|(k1 & K1 & E1 & V1)]) (_ & [(O2 & R2)|(k2 & K2 & E2 & V2)]); cbn [fst snd] in *.
    - congruence.
    - destruct O1 as (_ & _ & _ & O1). destruct (O1 k2 E2).
    - destruct O2 as (_ & _ & _ & O2). destruct (O2 k1 E1).
    - assert (k1 = k2) by (apply auto_ns_inj; congruence). congruence.
  Qed.
  Lemma good_plain : forall a n p u, good a n (p, u) -> plain_name p /\ p <> ascii_str "xml" /\ p <> ascii_str "xmlns".
  Proof. intros a n p u (_ & [((O1 & O2 & O3 & _) & _)|(k & _ & E & _)]); cbn [fst] in *; [auto|]. subst p. split; [apply auto_plain|]. split; intros E; discriminate E. Qed.
  Lemma good_default : forall a n u, good a n ([], u) -> r [] = u /\ u <> [].
  Proof. intros a n u (N & [(_ & R)|(k & _ & E & _)]); [auto|discriminate E]. Qed.
  Lemma good_more : forall a n u b, good a n b -> good (fun k => if Nat.eqb k n then u else a k) (S n) b.
  Proof. intros a n u b (N & [O|(k & K & E & V)]); (split; [exact N|]); [auto|]. right. exists k. split; [lia|]. split; [exact E|]. destruct (Nat.eqb_spec k n); [lia|exact V]. Qed.
  Definition all_good a n (st : list (list (str * str))) : Prop := forall s b, In s st -> In b s -> good a n b.
  Lemma bound_in : forall st p u, bound st p = u -> u <> [] -> exists s, In s st /\ In (p, u) s.
  Proof.
    intros st p u. induction st as [|s st IH]; cbn [bound]; intros E N; [congruence|]. destruct (find _ s) as [(p', u')|] eqn:F.
    - apply find_some in F. destruct F as (I & Q). apply str_eqb_true in Q. cbn [fst snd] in *. subst. exists s. cbn; auto.
    - destruct (IH E N) as (s' & I & J). exists s'. cbn; auto.
  Qed.
  Lemma bound_good : forall a n st p u, all_good a n st -> (exists s, In s st /\ In (p, u) s) -> bound st p = u.
  Proof.
    intros a n st p u G (s & I & J). induction st as [|s' st IH]; [destruct I|]. cbn [bound]. destruct (find _ s') as [(p', u')|] eqn:F.
    - apply find_some in F. destruct F as (I' & Q). apply str_eqb_true in Q. cbn [fst snd] in *. subst p'. apply (good_one a n p u' u); [exact (G s' _ (or_introl eq_refl) I')|exact (G s _ I J)].
    - destruct I as [->|I]; [pose proof (find_none _ _ F _ J) as X; cbn [fst] in X; rewrite (proj2 (str_eqb_true p p) eq_refl) in X; discriminate|]. apply IH; [|exact I]. intros s0 b I0. apply G. right. exact I0.
  Qed.
  Lemma bound_default : forall a n st, all_good a n st -> r [] = [] -> bound st [] = [].
  Proof.
    intros a n st G R. destruct (bound st []) as [|z w] eqn:E; [reflexivity|]. destruct (bound_in st [] _ E) as (s & I & J); [discriminate|]. apply G in J; [|exact I]. apply good_default in J. destruct J. congruence.
  Qed.
End Bindings.

(** * Scopes *)
Definition after (sc : list (list (str * str))) (e : event) : list (list (str * str)) := match e with Start _ _ atts => declared atts :: sc | End_ _ _ => tl sc | _ => sc end.
Definition names_at (sc : list (list (str * str))) (e : event) : Prop := match e with Start q u atts => names_ok (declared atts :: sc) q u atts | _ => True end.
Lemma all_names_app : forall l sc e, all_names_ok sc (l ++ [e]) <-> all_names_ok sc l /\ names_at (fold_left after l sc) e.
Proof.
  induction l as [|x l IH]; intros sc e; cbn [app fold_left].
  - destruct e; cbn; tauto.
  - destruct x; cbn [all_names_ok after]; rewrite IH; tauto.
Qed.
Lemma after_escaping : forall es sc, Forall escaping es -> fold_left after es sc = sc.
Proof. intros es sc H. induction H as [|e es H F IH]; [reflexivity|]. destruct e; try contradiction. exact IH. Qed.
Lemma names_escaping : forall es l, Forall escaping es -> all_names_ok [] l -> all_names_ok [] (l ++ es).
Proof.
  intros es. induction es as [|e es IH] using rev_ind; intros l F H; [rewrite app_nil_r; exact H|]. apply Forall_app in F. destruct F as (F1 & F2). rewrite app_assoc. apply all_names_app. split; [apply IH; assumption|]. inversion F2; subst. destruct e; try contradiction. exact Logic.I.
Qed.
Lemma map_set_in : forall (k v : str) m x, ~ In k (map fst m) -> (In x (map_set k v m) <-> x = (k, v) \/ In x m).
Proof.
  intros k v m x. induction m as [|(k', v') m IH]; cbn [map_set map fst In]; intros N; [intuition|]. destruct (str_eqb k' k) eqn:E; [apply str_eqb_true in E; subst; tauto|]. destruct (str_ltb k k'); cbn [In]; [intuition|]. rewrite IH by tauto. intuition.
Qed.
Lemma map_set_nodup : forall (k v : str) m (l : list str), ~ In k (map fst m) -> ~ In k l -> NoDup (map fst m ++ l) -> NoDup (map fst (map_set k v m) ++ l).
Proof.
  intros k v m l NI NL. induction m as [|(k', v') m IH]; cbn [map_set map fst app In] in *; intros N; [constructor; assumption|]. destruct (str_eqb k' k) eqn:E; [apply str_eqb_true in E; subst; tauto|]. destruct (str_ltb k k'); cbn [map fst app].
  - constructor; [|exact N]. cbn [In]. rewrite in_app_iff. tauto.
  - inversion N as [|? ? N1 N2]; subst. constructor; [|apply IH; [tauto|exact N2]]. intros I. apply N1. apply in_app_or in I. apply in_or_app. destruct I as [I|I]; [|auto]. left. apply in_map_iff in I. destruct I as ((k2, v2) & E2 & I). cbn [fst] in E2. subst k2. apply map_set_in in I; [|tauto]. destruct I as [I|I]; [injection I as -> _; rewrite (proj2 (str_eqb_true k k) eq_refl) in E; discriminate|]. apply in_map_iff. exists (k', v2). auto.
Qed.
Lemma search_in : forall st k v, search_stack st k = v -> v <> [] -> exists j s, nth_error st j = Some s /\ In (k, v) s.
Proof.
  intros st k v. induction st as [|s st IH]; cbn [search_stack]; intros E N; [congruence|]. destruct (mm_find k s) as [w|] eqn:F.
  - subst. apply mm_find_in in F. exists O, s. auto.
  - destruct (IH E N) as (j & s' & I & J). exists (S j), s'. auto.
Qed.
Lemma Forall2_at {A B} (R : A -> B -> Prop) l l' : Forall2 R l l' -> forall j y, nth_error l' j = Some y -> exists x, nth_error l j = Some x /\ R x y.
Proof. induction 1 as [|a b l l' H F IH]; intros [|j] y E; cbn in *; try discriminate; [injection E as <-; eauto|apply IH; exact E]. Qed.
Lemma Forall2_left {A B} (R : A -> B -> Prop) l l' : Forall2 R l l' -> forall x, In x l -> exists y, In y l' /\ R x y.
Proof. induction 1 as [|a b l l' H F IH]; intros x I; [destruct I|]. destruct I as [<-|I]; [exists b; cbn; auto|]. destruct (IH x I) as (y & J & K). exists y. cbn; auto. Qed.
Lemma NoDup_by {A B C} (f : A -> B) (g : A -> C) l : NoDup (map f l) -> (forall x y, In x l -> In y l -> g x = g y -> f x = f y) -> NoDup (map g l).
Proof.
  induction l as [|x l IH]; cbn [map]; intros N H; [constructor|]. inversion N as [|? ? N1 N2]; subst. constructor.
  - intros I. apply in_map_iff in I. destruct I as (y & E & I). apply N1. apply in_map_iff. exists y. split; [|exact I]. apply H; cbn; auto.
  - apply IH; [exact N2|]. intros y z Y Z. apply H; cbn; auto.
Qed.
Lemma NoDup_both {A} (a b : list A) : NoDup a -> NoDup b -> (forall x, In x a -> In x b -> False) -> NoDup (a ++ b).
Proof.
  induction a as [|x a IH]; intros N M H; [exact M|]. inversion N as [|? ? N1 N2]; subst. cbn [app]. constructor.
  - rewrite in_app_iff. intros [I|I]; [exact (N1 I)|exact (H x (or_introl eq_refl) I)].
  - apply IH; [exact N2|exact M|]. intros y Y. apply H. right. exact Y.
Qed.
Lemma filter_all {A} (f : A -> bool) l : (forall x, In x l -> f x = true) -> filter f l = l.
Proof. induction l as [|x l IH]; intros H; [reflexivity|]. cbn [filter]. rewrite (H x (or_introl eq_refl)). f_equal. apply IH. intros y Y. apply H. right. exact Y. Qed.
Lemma filter_none {A} (f : A -> bool) l : (forall x, In x l -> f x = false) -> filter f l = [].
Proof. induction l as [|x l IH]; intros H; [reflexivity|]. cbn [filter]. rewrite (H x (or_introl eq_refl)). apply IH. intros y Y. apply H. right. exact Y. Qed.

Lemma declares_name : forall p l x, a_qname x = make_name p l -> plain_name p -> plain_name l -> p <> ascii_str "xmlns" -> (p = [] -> l <> ascii_str "xmlns") -> declares x = None.
Proof.
  intros p l x E P L N X. unfold declares. destruct (make_name_parts p l P L) as (E1 & _). rewrite E, E1. rewrite (proj2 (str_eqb_false p (ascii_str "xmlns")) N). destruct (str_eqb (make_name p l) (ascii_str "xmlns")) eqn:Q; [|reflexivity]. exfalso. apply str_eqb_true in Q. rewrite Q in E1. destruct p as [|c p]; [exact (X eq_refl Q)|]. discriminate E1.
Qed.
Lemma declares_declaration : forall b, declares (declaration b) = Some (fst b).
Proof. intros (p, u). unfold declares, declaration. cbn [fst a_qname]. destruct p as [|c p]; reflexivity. Qed.
Lemma declared_app : forall a b, declared (a ++ b) = declared a ++ declared b.
Proof. intros a b. unfold declared. apply flat_map_app. Qed.
Lemma declared_declarations : forall s, declared (map declaration s) = s.
Proof. induction s as [|b s IH]; [reflexivity|]. unfold declared in *. cbn [map flat_map]. rewrite declares_declaration, IH. destruct b; reflexivity. Qed.
Lemma declared_none : forall l, (forall x, In x l -> declares x = None) -> declared l = [].
Proof. induction l as [|x l IH]; intros H; [reflexivity|]. unfold declared in *. cbn [flat_map]. rewrite (H x (or_introl eq_refl)). apply IH. intros y Y. apply H. right. exact Y. Qed.

Definition scopes (o : output) : list (list (str * str)) := fold_left after (o_events o) [].
Definition dual (ps us : list (str * str)) : Prop := forall p u, In (p, u) ps <-> In (u, p) us.
Definition att_ok (n : namespaces) (x : attr) : Prop :=
  a_qname x = make_name (find_prefix n (a_uri x)) (a_local x) /\ (a_uri x <> [] -> find_prefix n (a_uri x) <> []) /\ plain_name (a_local x) /\ (a_uri x = [] -> a_local x <> ascii_str "xmlns").
Record NI (r : str -> str) (a : nat -> str) (o : output) : Prop := MkNI {
  n_names : all_names_ok [] (o_events o);
  n_good : all_good r a (n_auto (o_names o)) (n_prefixes (o_names o));
  n_events : all_good r a (n_auto (o_names o)) (scopes o);
  n_dual : Forall2 dual (n_prefixes (o_names o)) (n_uris (o_names o));
  n_incl : Forall2 (@incl (str * str)) (if o_pending_element o then tl (tl (n_prefixes (o_names o))) else n_prefixes (o_names o)) (scopes o ++ [[]]);
  n_pend : o_pending_element o = true -> forall s1 s2 ps, n_prefixes (o_names o) = s1 :: s2 :: ps -> NoDup (map fst s1 ++ map fst s2) /\ (forall p u, In (p, u) s1 -> p <> []) /\ (length s2 <= 1)%nat;
  n_atts : o_pending_element o = true -> NoDup (keys (o_atts o)) /\ forall x, In x (o_atts o) -> att_ok (o_names o) x;
  n_elem : o_pending_element o = true -> forall e es, o_elements o = e :: es -> plain_name (q_local e) /\ (q_uri e = [] -> q_prefix e = [] /\ r [] = []) /\ (q_uri e <> [] -> exists s, In s (tl (n_prefixes (o_names o))) /\ In (q_prefix e, q_uri e) s) }.
Definition SS (o : output) : list started :=
  flat_map started_by (o_events o) ++ match o_pending_element o, o_elements o with true, e :: _ => [(q_local e, q_uri e, map view (o_atts o))] | _, _ => [] end.

Section Names.
  Variable r : str -> str.
  Lemma found_bound : forall a n u v, all_good r a (n_auto n) (n_prefixes n) -> Forall2 dual (n_prefixes n) (n_uris n) -> find_prefix n u = v -> v <> [] -> exists s, In s (n_prefixes n) /\ In (v, u) s.
  Proof.
    intros a n u v G D E N. destruct (search_in _ _ _ E N) as (j & s & J & I). destruct (Forall2_at _ _ _ D j s J) as (s' & J' & DU). exists s'. split; [eapply nth_error_In; exact J'|]. apply DU. exact I.
  Qed.
  Lemma found_nil : forall a n, all_good r a (n_auto n) (n_prefixes n) -> Forall2 dual (n_prefixes n) (n_uris n) -> find_prefix n [] = [].
  Proof.
    intros a n G D. destruct (find_prefix n []) as [|c v] eqn:E; [reflexivity|]. destruct (found_bound a n [] (c :: v) G D E) as (s & I & J); [discriminate|]. destruct (G s _ I J) as (N & _). destruct (N eq_refl).
  Qed.
  Lemma att_prefix : forall a n x, all_good r a (n_auto n) (n_prefixes n) -> Forall2 dual (n_prefixes n) (n_uris n) -> att_ok n x ->
    exists p, a_qname x = make_name p (a_local x) /\ plain_name p /\ p <> ascii_str "xmlns" /\ (a_uri x = [] -> p = []) /\ (a_uri x <> [] -> p <> [] /\ exists s, In s (n_prefixes n) /\ In (p, a_uri x) s).
  Proof.
    intros a n x G D (Q & F & L & X). exists (find_prefix n (a_uri x)). destruct (find_prefix n (a_uri x)) as [|c v] eqn:E.
    - split; [exact Q|]. split; [intros []|]. split; [discriminate|]. split; [auto|]. intros N. destruct (F N eq_refl).
    - destruct (found_bound a n (a_uri x) (c :: v) G D E) as (s & I & J); [discriminate|]. destruct (good_plain r a _ _ _ (G s _ I J)) as (P1 & P2 & P3). split; [exact Q|]. split; [exact P1|]. split; [exact P3|]. split.
      + intros U. rewrite U in E. rewrite (found_nil a n G D) in E. discriminate.
      + intros _. split; [discriminate|]. exists s. auto.
  Qed.
  Lemma flush_names : forall a o, Inv o -> o_declares o = true -> NI r a o -> NI r a (flush_element o) /\ SS (flush_element o) = SS o.
  Proof.
    intros a o IV DE NV. destruct (o_pending_element o) eqn:H; [|rewrite flush_idle by exact H; auto].
    destruct (flush_pending o IV H) as (e & es & s1 & s2 & ps & E1 & E2 & ->). destruct NV as [N1 N2 N3 N4 N5 N6 N7 N8]. destruct (N6 H s1 s2 ps E2) as (ND & NN & LS). destruct (N7 H) as (NK & AO). destruct (N8 H e es E1) as (PL & UE & UN). rewrite H, E2 in N5. cbn [tl] in N5. rewrite E2 in UN. cbn [tl] in UN.
    assert (GB : forall b, In b s1 \/ In b s2 -> good r a (n_auto (o_names o)) b). { intros b [B|B]; [apply (N2 s1)|apply (N2 s2)]; rewrite ?E2; cbn; auto. }
    assert (GD : given_declarations o s1 s2 = map declaration (s1 ++ s2)).
    { unfold given_declarations. rewrite DE, map_app. f_equal; f_equal; (apply filter_all; intros (p, u) B; cbn [fst]; apply negb_true_iff, str_eqb_false); [destruct (good_plain r a (n_auto (o_names o)) p u (GB _ (or_introl B))) as (_ & G2 & _)|destruct (good_plain r a (n_auto (o_names o)) p u (GB _ (or_intror B))) as (_ & G2 & _)]; exact G2. }
    rewrite GD. assert (AN : forall x, In x (o_atts o) -> declares x = None).
    { intros x X. pose proof (AO x X) as OK. destruct (att_prefix a _ x N2 N4 OK) as (p & Q & P & PX & PN & _). destruct OK as (_ & F & L & XM). apply (declares_name p (a_local x)); auto. intros ->. apply XM. destruct (a_uri x) eqn:U; [reflexivity|]. destruct (att_prefix a _ x N2 N4 (AO x X)) as (p' & Q' & P' & _ & _ & PU). exfalso. destruct PU as (PU & _); [rewrite U; discriminate|]. pose proof (make_name_parts p' (a_local x) P' L) as (M1 & _). pose proof (make_name_parts [] (a_local x) P L) as (M2 & _). congruence. }
    assert (DA : declared (o_atts o ++ map declaration (s1 ++ s2)) = s1 ++ s2) by (rewrite declared_app, (declared_none _ AN), declared_declarations; reflexivity).
    assert (EG : all_good r a (n_auto (o_names o)) ((s1 ++ s2) :: scopes o)). { intros s b [<-|S] B; [apply GB; apply in_app_or; exact B|exact (N3 s b S B)]. }
    assert (REACH : forall p u s, In s (s1 :: s2 :: ps) -> In (p, u) s -> exists s', In s' ((s1 ++ s2) :: scopes o) /\ In (p, u) s').
    { intros p u s S B. destruct S as [<-|[<-|S]].
      - exists (s1 ++ s2). split; [left; reflexivity|apply in_or_app; auto].
      - exists (s1 ++ s2). split; [left; reflexivity|apply in_or_app; auto].
      - destruct (Forall2_left _ _ _ N5 s S) as (s' & S' & INC). apply INC in B. apply in_app_or in S'. destruct S' as [S'|[<-|[]]]; [exists s'; cbn; auto|destruct B]. }
    assert (PLP : plain_name (q_prefix e)).
    { destruct (q_uri e) as [|c u] eqn:U; [destruct (UE eq_refl) as (-> & _); intros []|]. destruct UN as (s & S & B); [discriminate|]. eapply good_plain. apply (N2 s); [rewrite E2; cbn; cbn in S; tauto|exact B]. }
    pose proof (make_name_parts (q_prefix e) (q_local e) PLP PL) as (MP & ML).
    assert (SC : scopes (Output (o_buffering o) false (o_pending_text o) None false (o_declares o) (o_cdata o) (o_elements o) (o_target o) (o_atts o ++ map declaration (s1 ++ s2)) (o_buffer o) (Namespaces (s2 :: ps) (tl (n_uris (o_names o))) (n_auto (o_names o)))
      (o_events o ++ [Start (q_name e) (q_uri e) (o_atts o ++ map declaration (s1 ++ s2))]) (o_undefined o)) = (s1 ++ s2) :: scopes o).
    { unfold scopes. cbn [o_events]. rewrite fold_left_app. cbn [fold_left after]. rewrite DA. reflexivity. }
    split; [constructor; rewrite ?SC; cbn [o_names o_pending_element n_prefixes n_uris n_auto o_events]|]; try (intros X; discriminate X).
    - apply all_names_app. split; [exact N1|]. cbn [names_at]. rewrite DA. fold (scopes o). split; [|split].
      + unfold q_name. rewrite MP. destruct (q_uri e) as [|c u] eqn:U.
        * destruct (UE eq_refl) as (-> & R). exact (bound_default r a _ _ EG R).
        * destruct UN as (s & S & B); [discriminate|]. apply (bound_good r a (n_auto (o_names o))); [exact EG|]. eapply REACH; [right; exact S|exact B].
      + intros x X DN. apply in_app_or in X. destruct X as [X|X]; [|apply in_map_iff in X; destruct X as (b & <- & _); rewrite declares_declaration in DN; discriminate].
        pose proof (AO x X) as OK. destruct (att_prefix a _ x N2 N4 OK) as (p & Q & P & PX & PN & PU). destruct OK as (_ & _ & L & _). pose proof (make_name_parts p (a_local x) P L) as (M1 & _). rewrite Q, M1. destruct (a_uri x) as [|c u] eqn:U.
        * rewrite (PN eq_refl). reflexivity.
        * destruct PU as (PU & s & S & B); [discriminate|]. destruct p as [|c' p]; [destruct (PU eq_refl)|]. symmetry. apply (bound_good r a (n_auto (o_names o))); [exact EG|]. rewrite E2 in S. eapply REACH; [exact S|exact B].
      + rewrite map_app. apply NoDup_both.
        * apply (NoDup_by (fun x => (a_uri x, a_local x))); [exact NK|]. intros x y X Y QE. pose proof (AO x X) as OX. pose proof (AO y Y) as OY. destruct (att_prefix a _ x N2 N4 OX) as (p & Q & P & _ & PN & PU). destruct (att_prefix a _ y N2 N4 OY) as (p' & Q' & P' & _ & PN' & PU'). destruct OX as (_ & _ & L & _). destruct OY as (_ & _ & L' & _).
          pose proof (make_name_parts p (a_local x) P L) as (M1 & M2). pose proof (make_name_parts p' (a_local y) P' L') as (M1' & M2'). rewrite <- Q in M1, M2. rewrite <- Q' in M1', M2'. rewrite QE in M1, M2. assert (EP : p = p') by congruence. assert (EL : a_local x = a_local y) by congruence. rewrite EL. f_equal. rewrite <- EP in PN', PU'. clear M1 M1' M2 M2' P' Q' EP.
          destruct (a_uri x) as [|c u] eqn:U; destruct (a_uri y) as [|c' u'] eqn:U'.
          -- reflexivity.
          -- destruct PU' as (X1 & _); [discriminate|]. destruct (X1 (PN eq_refl)).
          -- destruct PU as (X1 & _); [discriminate|]. destruct (X1 (PN' eq_refl)).
          -- destruct PU as (_ & s & S & B); [discriminate|]. destruct PU' as (_ & s' & S' & B'); [discriminate|]. exact (good_one r a _ p _ _ (N2 s _ S B) (N2 s' _ S' B')).
        * rewrite map_map. apply (NoDup_by fst); [rewrite map_app; exact ND|]. intros b b' _ _ QE. pose proof (declares_declaration b) as D1. pose proof (declares_declaration b') as D2. unfold declares in D1, D2. rewrite QE in D1. congruence.
        * intros q Q1 Q2. apply in_map_iff in Q1. destruct Q1 as (x & Q1 & X). apply in_map_iff in Q2. destruct Q2 as (y & Q2 & Y). apply in_map_iff in Y. destruct Y as (b & <- & _). specialize (AN x X). pose proof (declares_declaration b) as D2. unfold declares in AN, D2. rewrite Q1 in AN. rewrite Q2 in D2. congruence.
    - intros s b S B. apply (N2 s b); [rewrite E2; right; exact S|exact B].
    - exact EG.
    - rewrite E2 in N4. inversion N4; subst. assumption.
    - cbn [app]. constructor; [|exact N5]. intros b B. apply in_or_app. auto.
    - unfold SS. rewrite H, E1. cbn [o_events o_pending_element]. rewrite flat_map_app, app_nil_r. f_equal. cbn [flat_map started_by app]. rewrite app_nil_r || idtac. unfold q_name. rewrite ML. f_equal. f_equal. unfold plain_atts. rewrite filter_app, map_app, (filter_all _ (o_atts o)), (filter_none _ (map declaration (s1 ++ s2))), app_nil_r; [reflexivity| |].
      + intros x X. apply in_map_iff in X. destruct X as (b & <- & _). rewrite declares_declaration. reflexivity.
      + intros x X. rewrite (AN x X). reflexivity.
  Qed.

  Lemma NI_same : forall a o o', o_events o' = o_events o -> o_names o' = o_names o -> o_pending_element o' = o_pending_element o -> o_elements o' = o_elements o -> o_atts o' = o_atts o -> NI r a o -> NI r a o' /\ SS o' = SS o.
  Proof.
    intros a o o' E1 E2 E3 E4 E5 [N1 N2 N3 N4 N5 N6 N7 N8]. split; [|unfold SS; rewrite E1, E3, E4, E5; reflexivity]. assert (SC : scopes o' = scopes o) by (unfold scopes; congruence). constructor; rewrite ?SC, ?E1, ?E2, ?E3, ?E4, ?E5; assumption.
  Qed.
  Lemma emit_names : forall a o e, (forall sc, after sc e = sc) -> started_by e = [] -> NI r a o -> NI r a (emit e o) /\ SS (emit e o) = SS o.
  Proof.
    intros a o e H S [N1 N2 N3 N4 N5 N6 N7 N8]. assert (SC : scopes (emit e o) = scopes o) by (unfold scopes; cbn [emit o_events]; rewrite fold_left_app; cbn [fold_left]; apply H). split.
    - constructor; rewrite ?SC; cbn [emit o_events o_names o_pending_element o_elements o_atts]; try assumption. apply all_names_app. split; [exact N1|]. destruct e; try exact Logic.I. discriminate S.
    - unfold SS. cbn [emit o_events o_pending_element o_elements o_atts]. rewrite flat_map_app. cbn [flat_map]. rewrite S, !app_nil_r. reflexivity.
  Qed.
  Lemma flush_current_names : forall a o, Inv o -> o_declares o = true -> NI r a o -> NI r a (flush_current o) /\ SS (flush_current o) = SS o.
  Proof.
    intros a o IV DE NV. unfold flush_current. destruct (o_pending_text o) eqn:PT; [|apply flush_names; assumption].
    assert (H : o_pending_element o = false). { destruct (o_pending_element o) eqn:H; [|reflexivity]. destruct (i_pending o IV H). congruence. }
    rewrite flush_idle by (destruct (is_cdata o); exact H). destruct (is_cdata o).
    - destruct (emit_names a o EndCdata) as (A & B); auto. destruct (NI_same a (emit EndCdata o) (with_pending_text false (emit EndCdata o)) eq_refl eq_refl eq_refl eq_refl eq_refl A) as (C & D). split; [exact C|congruence].
    - apply NI_same; auto.
  Qed.
  Lemma quiet_names : forall a t es o, Forall escaping es -> NI r a o -> NI r a (quiet t [] es o) /\ SS (quiet t [] es o) = SS o.
  Proof.
    intros a t es o F [N1 N2 N3 N4 N5 N6 N7 N8]. assert (SC : scopes (quiet t [] es o) = scopes o) by (unfold scopes; cbn [quiet o_events]; rewrite fold_left_app; apply after_escaping; exact F). split.
    - constructor; rewrite ?SC; cbn [quiet o_events o_names o_pending_element o_elements o_atts]; rewrite ?app_nil_r; try assumption. apply names_escaping; assumption.
    - unfold SS. cbn [quiet o_events o_pending_element o_elements o_atts]. rewrite flat_map_app, app_nil_r. assert (E : flat_map started_by es = []). { clear - F. induction F as [|e es H F IH]; [reflexivity|]. destruct e; try contradiction. exact IH. } rewrite E, app_nil_r. reflexivity.
  Qed.
  Lemma two_scopes : forall o a, Inv o -> NI r a o -> o_pending_element o = true -> exists s1 s2 ps t1 t2 ts, (n_prefixes (o_names o) = s1 :: s2 :: ps /\ n_uris (o_names o) = t1 :: t2 :: ts) /\ dual s1 t1 /\ dual s2 t2 /\ Forall2 dual ps ts.
  Proof.
    intros o a IV NV H. pose proof (i_prefixes o IV) as L. rewrite H in L. pose proof (n_dual _ _ _ NV) as D. destruct (i_pending o IV H) as (NE & _). destruct (o_names o) as [ps us k]. cbn [n_prefixes n_uris n_auto] in *. destruct (o_elements o); [destruct (NE eq_refl)|]. destruct ps as [|s1 [|s2 ps]]; cbn in L; try lia. inversion D as [|? t1 ? us1 D1 R1]; subst. inversion R1 as [|? t2 ? ts D2 R2]; subst. exists s1, s2, ps, t1, t2, ts. auto.
  Qed.
  Lemma set_attr : forall a o px u a' k', Inv o -> NI r a o -> o_pending_element o = true -> u <> [] -> px <> [] -> find_prefix (o_names o) u = [] -> good r a' k' (px, u) -> (forall b, good r a (n_auto (o_names o)) b -> good r a' k' b) ->
    (forall u', good r a (n_auto (o_names o)) (px, u') -> u' = u) ->
    let n' := Namespaces (set_in_top px u (n_prefixes (o_names o))) (set_in_top u px (n_uris (o_names o))) k' in
    NI r a' (with_names n' o) /\ find_prefix n' u = px /\ SS (with_names n' o) = SS o.
  Proof.
    intros a o px u a' k' IV NV H UN PN F G GM FR n'. destruct (two_scopes o a IV NV H) as (s1 & s2 & ps & t1 & t2 & ts & (EP & EU) & D1 & D2 & DR). destruct NV as [N1 N2 N3 N4 N5 N6 N7 N8]. destruct (N6 H s1 s2 ps) as (ND & NN & LS); [exact EP|]. destruct (N7 H) as (NK & AO).
    assert (GS : forall b, In b s1 \/ In b s2 -> good r a (n_auto (o_names o)) b). { intros b [B|B]; [apply (N2 s1)|apply (N2 s2)]; try (rewrite EP; cbn; tauto); exact B. }
    unfold find_prefix in F. rewrite EU in F. cbn [search_stack] in F.
    assert (T1 : mm_find u t1 = None). { destruct (mm_find u t1) as [v|] eqn:M; [|reflexivity]. subst v. apply mm_find_in in M. apply D1 in M. destruct (NN _ _ M eq_refl). }
    rewrite T1 in F. pose proof (proj1 (mm_find_none_in _ _) T1) as U1.
    assert (P1 : ~ In px (map fst s1)). { intros I. apply in_map_iff in I. destruct I as ((p', u') & E & I). cbn [fst] in E. subst p'. assert (u' = u) by (apply FR, GS; auto). subst u'. apply D1 in I. apply U1. apply in_map_iff. exists (u, px). auto. }
    assert (P2 : ~ In px (map fst s2)).
    { intros I. apply in_map_iff in I. destruct I as ((p', u') & E & I). cbn [fst] in E. subst p'. assert (u' = u) by (apply FR, GS; auto). subst u'. pose proof (proj1 (D2 _ _) I) as J. destruct (mm_find u t2) as [v|] eqn:M.
      - subst v. apply mm_find_in in M. apply D2 in M. destruct s2 as [|b [|? ?]]; cbn in LS, I, M; try lia; intuition congruence.
      - apply mm_find_none_in in M. apply M. apply in_map_iff. exists (u, px). auto. }
    assert (SAME : forall v, v <> u -> find_prefix n' v = find_prefix (o_names o) v).
    { intros v V. unfold find_prefix, n'. rewrite EU. cbn [n_uris set_in_top search_stack]. rewrite map_find_set. destruct (str_eqb u v) eqn:E; [apply str_eqb_true in E; congruence|reflexivity]. }
    assert (SC : scopes (with_names n' o) = scopes o) by reflexivity.
    split; [|split].
    - constructor; rewrite ?SC; cbn [with_names o_events o_names o_pending_element o_elements o_atts]; unfold n'; cbn [n_prefixes n_uris n_auto]; rewrite ?EP, ?EU; cbn [n_prefixes n_uris set_in_top tl].
      + exact N1.
      + intros s b S B. destruct S as [<-|S].
        * apply map_set_in in B; [|exact P1]. destruct B as [->|B]; [exact G|]. apply GM, GS. auto.
        * apply GM. apply (N2 s b); [rewrite EP; right; exact S|exact B].
      + intros s b S B. exact (GM b (N3 s b S B)).
      + constructor; [|constructor; assumption]. intros p v. rewrite !map_set_in by assumption. rewrite (D1 p v). split; intros [E|E]; auto; left; congruence.
      + rewrite H in N5. rewrite EP in N5. rewrite H. exact N5.
      + intros _ x1 x2 xs E. injection E as <- <- <-. split; [apply map_set_nodup; assumption|]. split; [|exact LS]. intros p v B. apply map_set_in in B; [|exact P1]. destruct B as [B|B]; [congruence|exact (NN p v B)].
      + intros _. split; [exact NK|]. intros x X. destruct (AO x X) as (Q & FX & L & XM). assert (a_uri x <> u).
        { intros E. apply (FX (eq_ind_r (fun z => z <> []) UN E)). rewrite E. unfold find_prefix. rewrite EU. cbn [search_stack]. rewrite T1. exact F. }
        pose proof (SAME (a_uri x) H0) as SM. unfold n' in SM. rewrite EP, EU in SM. cbn [set_in_top] in SM. unfold att_ok. rewrite SM. auto.
      + intros _ e es E. destruct (N8 H e es E) as (A1 & A2 & A3). rewrite EP in A3. auto.
    - unfold find_prefix, n'. rewrite EU. cbn [n_uris set_in_top search_stack]. rewrite map_find_set, (proj2 (str_eqb_true u u) eq_refl). reflexivity.
    - reflexivity.
  Qed.
  Lemma declare_attr : forall a o p u, Inv o -> NI r a o -> o_pending_element o = true -> (u <> [] -> p = [] \/ (own_prefix p /\ r p = u)) ->
    let n' := match u with [] => o_names o | _ => declare_namespace p u true (o_names o) end in
    exists a', NI r a' (with_names n' o) /\ (u <> [] -> find_prefix n' u <> []) /\ SS (with_names n' o) = SS o.
  Proof.
    intros a o p u IV NV H C n'. assert (ID : NI r a (with_names (o_names o) o) /\ SS (with_names (o_names o) o) = SS o) by (apply NI_same; auto).
    destruct u as [|c u']; [exists a; unfold n'; split; [apply ID|split; [congruence|apply ID]]|]. set (u := c :: u') in *. assert (UN : u <> []) by discriminate. specialize (C UN).
    change (exists a', NI r a' (with_names (declare_namespace p u true (o_names o)) o) /\ (u <> [] -> find_prefix (declare_namespace p u true (o_names o)) u <> []) /\ SS (with_names (declare_namespace p u true (o_names o)) o) = SS o). clear n'.
    unfold declare_namespace. destruct (str_eqb (find_prefix (o_names o) u) []) eqn:E; cbn [negb].
    - apply str_eqb_true in E. cbn [andb]. destruct (str_eqb p [] || str_eqb p (ascii_str "xmlns")) eqn:B.
      + set (k := n_auto (o_names o)). destruct (set_attr a o (auto_ns k) u (fun j => if Nat.eqb j k then u else a j) (S k) IV NV H UN) as (A & B1 & B2).
        * discriminate.
        * exact E.
        * split; [exact UN|]. right. exists k. split; [lia|]. split; [reflexivity|]. cbn [snd]. rewrite Nat.eqb_refl. reflexivity.
        * apply good_more.
        * intros v (_ & [(O & _)|(j & J & EJ & _)]); cbn [fst] in *; [destruct O as (_ & _ & _ & O); destruct (O k eq_refl)|]. apply auto_ns_inj in EJ. unfold k in EJ. lia.
        * eexists. split; [exact A|]. split; [intros _; rewrite B1; discriminate|exact B2].
      + apply orb_false_iff in B. destruct B as (B1 & B2). apply str_eqb_false in B1. destruct C as [C|(O & R)]; [congruence|]. destruct (set_attr a o p u a (n_auto (o_names o)) IV NV H UN B1 E) as (A & B3 & B4).
        * split; [exact UN|]. left. auto.
        * auto.
        * intros v G. apply (good_one r a _ p _ _ G). split; [exact UN|]. left. auto.
        * eexists. split; [exact A|]. split; [intros _; rewrite B3; exact B1|exact B4].
    - apply str_eqb_false in E. exists a. split; [apply ID|]. split; [auto|apply ID].
  Qed.
  Lemma att_same : forall a n x y, all_good r a (n_auto n) (n_prefixes n) -> Forall2 dual (n_prefixes n) (n_uris n) -> att_ok n x -> att_ok n y -> a_qname x = a_qname y -> a_uri x = a_uri y /\ a_local x = a_local y.
  Proof.
    intros a n x y G D OX OY QE. destruct (att_prefix a _ x G D OX) as (p & Q & P & _ & PN & PU). destruct (att_prefix a _ y G D OY) as (p' & Q' & P' & _ & PN' & PU'). destruct OX as (_ & _ & L & _). destruct OY as (_ & _ & L' & _).
    pose proof (make_name_parts p (a_local x) P L) as (M1 & M2). pose proof (make_name_parts p' (a_local y) P' L') as (M1' & M2'). rewrite <- Q in M1, M2. rewrite <- Q' in M1', M2'. rewrite QE in M1, M2. assert (EP : p = p') by congruence. assert (EL : a_local x = a_local y) by congruence. split; [|exact EL]. rewrite <- EP in PN', PU'. clear M1 M1' M2 M2' P' Q' EP.
    destruct (a_uri x) as [|c u] eqn:U; destruct (a_uri y) as [|c' u'] eqn:U'.
    - reflexivity.
    - destruct PU' as (X1 & _); [discriminate|]. destruct (X1 (PN eq_refl)).
    - destruct PU as (X1 & _); [discriminate|]. destruct (X1 (PN' eq_refl)).
    - destruct PU as (_ & s & S & B); [discriminate|]. destruct PU' as (_ & s' & S' & B'); [discriminate|]. exact (good_one r a _ p _ _ (G s _ S B) (G s' _ S' B')).
  Qed.
  Lemma put_attr : forall a o l u v, NI r a o -> o_pending_element o = true -> plain_name l -> (u = [] -> l <> ascii_str "xmlns") -> (u <> [] -> find_prefix (o_names o) u <> []) ->
    let q := make_name (find_prefix (o_names o) u) l in
    NI r a (with_atts (aput u l q v (o_atts o)) o) /\ (forall pre l0 u0 acc, o_elements o <> [] -> SS o = pre ++ [(l0, u0, acc)] -> SS (with_atts (aput u l q v (o_atts o)) o) = pre ++ [(l0, u0, put u l v acc)]) /\
    (forall x, In x (o_atts o) -> (a_qname x = q <-> is_named u l x = true)).
  Proof.
    intros a o l u v NV H PL XM FN q. destruct NV as [N1 N2 N3 N4 N5 N6 N7 N8]. destruct (N7 H) as (NK & AO). assert (SC : scopes (with_atts (aput u l q v (o_atts o)) o) = scopes o) by reflexivity.
    assert (OKN : att_ok (o_names o) (Attr u l q [] v)) by (unfold att_ok; cbn [a_qname a_uri a_local]; auto).
    split; [|split].
    - constructor; rewrite ?SC; cbn [with_atts o_events o_names o_pending_element o_elements o_atts]; try assumption. intros _. split; [apply aput_keys; exact NK|]. intros x X. apply aput_in in X. destruct X as [(b & B & E1 & E2 & E3)|(E1 & E2 & E3)].
      + pose proof (AO b B) as O. unfold att_ok in *. rewrite E1, E2, E3. exact O.
      + unfold att_ok. rewrite E1, E2, E3. auto.
    - intros pre l0 u0 acc NE E. unfold SS in *. cbn [with_atts o_events o_names o_pending_element o_elements o_atts]. rewrite H in *. destruct (o_elements o) as [|e es]; [destruct (NE eq_refl)|]. apply app_inj_tail in E. destruct E as (<- & E). injection E as <- <- <-. rewrite aput_view. reflexivity.
    - intros x X. rewrite is_named_true. split.
      + intros E. destruct (att_same a (o_names o) x (Attr u l q [] v) N2 N4 (AO x X) OKN E) as (E1 & E2). cbn in E1, E2. congruence.
      + intros E. injection E as E1 E2. destruct (AO x X) as (Q & _). rewrite Q, E1, E2. reflexivity.
  Qed.
  Lemma start_names : forall a o p l u, Inv o -> o_declares o = true -> NI r a o -> o_buffering o = 0 -> plain_name l -> (u <> [] -> own_prefix p /\ r p = u) -> (u = [] -> r [] = []) ->
    NI r a (fst (start_element p l u o)) /\ SS (fst (start_element p l u o)) = SS o ++ [(l, u, [])].
  Proof.
    intros a o p l u IV DE NV B PL UN UE. unfold start_element. rewrite B. cbn [Z.eqb negb]. destruct (flush_current_ok o IV) as (IV' & K & PE & PT & _). destruct (flush_current_names a o IV DE NV) as (NV' & SE). rewrite <- SE. clear NV IV B K SE DE. set (o' := flush_current o) in *. cbn [fst].
    destruct NV' as [N1 N2 N3 N4 N5 _ _ _]. rewrite PE in N5. set (n := match u with [] => push_scope (o_names o') | _ => declare_namespace p u false (push_scope (o_names o')) end).
    assert (FN : exists s t, n = Namespaces (s :: n_prefixes (o_names o')) (t :: n_uris (o_names o')) (n_auto (o_names o')) /\ dual s t /\ (length s <= 1)%nat /\ (forall b, In b s -> good r a (n_auto (o_names o')) b) /\ (u <> [] -> exists s', In s' (s :: n_prefixes (o_names o')) /\ In (find_prefix n u, u) s')).
    { unfold n. destruct u as [|c u'].
      - exists [], []. split; [reflexivity|]. split; [intros ? ?; cbn; tauto|]. split; [cbn; lia|]. split; [intros b []|congruence].
      - set (u := c :: u') in *. assert (NU : u <> []) by discriminate. destruct (UN NU) as (O & R). change (find_prefix (push_scope (o_names o')) u) with (find_prefix (o_names o') u).
        unfold declare_namespace. change (find_prefix (push_scope (o_names o')) u) with (find_prefix (o_names o') u). destruct (str_eqb (find_prefix (o_names o') u) []) eqn:E; cbn [negb].
        + cbn [andb orb]. pose proof O as (_ & _ & O3 & _). apply str_eqb_false in O3. rewrite O3. cbn [push_scope n_prefixes n_uris set_in_top map_set n_auto]. exists [(p, u)], [(u, p)]. split; [reflexivity|]. split; [intros x y; cbn; split; intros [Q|[]]; left; congruence|]. split; [cbn; lia|]. split; [intros b [<-|[]]; split; [exact NU|left; auto]|]. intros _. exists [(p, u)]. split; [left; reflexivity|]. unfold find_prefix. cbn [n_uris search_stack mm_find]. rewrite (proj2 (str_eqb_true u u) eq_refl). left. reflexivity.
        + apply str_eqb_false in E. exists [], []. split; [reflexivity|]. split; [intros ? ?; cbn; tauto|]. split; [cbn; lia|]. split; [intros b []|]. intros _. change (find_prefix (push_scope (o_names o')) u) with (find_prefix (o_names o') u). destruct (found_bound a (o_names o') u _ N2 N4 eq_refl E) as (s & S & J). exists s. split; [right; exact S|exact J]. }
    destruct FN as (s & t & EN & DU & LS & GS & FB). clearbody n. subst n. split.
    - constructor; cbn [with_names with_pending_element with_atts with_elements o_names o_events o_pending_element o_elements o_atts push_scope n_prefixes n_uris n_auto tl]; try assumption.
      + intros s' b S J. destruct S as [<-|[<-|S]]; [destruct J|exact (GS b J)|exact (N2 s' b S J)].
      + constructor; [intros ? ?; cbn; tauto|]. constructor; assumption.
      + intros _ x1 x2 xs E. injection E as <- <- <-. cbn [map app]. split; [|split; [intros ? ? []|exact LS]]. destruct s as [|b [|? ?]]; cbn in LS; try lia; cbn; repeat constructor; auto.
      + intros _. split; [constructor|intros x []].
      + intros _ e es E. injection E as <- <-. cbn [q_local q_prefix q_uri]. split; [exact PL|]. split; [|exact FB]. intros E. split; [|auto]. subst u.
        apply (found_nil a); cbn [n_auto n_prefixes n_uris]; [|constructor; assumption]. intros s' b [<-|S] J; [exact (GS b J)|exact (N2 s' b S J)].
    - unfold SS. cbn [with_names with_pending_element with_atts with_elements o_names o_events o_pending_element o_elements o_atts map]. rewrite PE, app_nil_r. reflexivity.
  Qed.
  Lemma end_names : forall a l u o, Inv o -> o_declares o = true -> NI r a o -> o_buffering o = 0 -> o_elements o <> [] -> NI r a (end_element l u o) /\ SS (end_element l u o) = SS o.
  Proof.
    intros a l u o IV DE NV B NE. unfold end_element. rewrite B. cbn [Z.eqb negb]. destruct (flush_current_ok o IV) as (IV' & K & PE & PT & _). destruct (flush_current_names a o IV DE NV) as (NV' & SE). rewrite <- SE. rewrite <- (k_elements _ _ K) in NE. clear NV IV B K SE DE. set (o' := flush_current o) in *. rewrite (i_text _ IV'). pose proof (i_prefixes _ IV') as LP. rewrite PE in LP. destruct (o_elements o') as [|e es] eqn:EE; [destruct (NE eq_refl)|]. clear IV' NE.
    destruct NV' as [N1 N2 N3 N4 N5 _ _ _]. rewrite PE in N5. destruct (o_names o') as [ps us k] eqn:EN. cbn [n_prefixes n_uris n_auto] in *. destruct ps as [|s1 [|s2 ps]]; cbn in LP; try lia. inversion N4 as [|? t1 ? us1 D1 DR]; subst. destruct (scopes o') as [|x xs] eqn:SX; [cbn in N5; inversion N5 as [|? ? ? ? ? Q]; subst; inversion Q|].
    set (q := make_name _ l). assert (SC : scopes (with_names (pop_scope (Namespaces (s1 :: s2 :: ps) (t1 :: us1) k)) (with_elements es (emit (End_ q u) o'))) = xs).
    { unfold scopes in *. cbn [with_names with_elements emit o_events]. rewrite fold_left_app, SX. reflexivity. }
    assert (G : NI r a (with_names (pop_scope (Namespaces (s1 :: s2 :: ps) (t1 :: us1) k)) (with_elements es (emit (End_ q u) o'))) /\ SS (with_names (pop_scope (Namespaces (s1 :: s2 :: ps) (t1 :: us1) k)) (with_elements es (emit (End_ q u) o'))) = SS o').
    { split.
      - constructor; rewrite ?SC; cbn [with_names with_elements emit o_names o_events o_pending_element o_elements o_atts pop_scope n_prefixes n_uris n_auto tl]; rewrite ?PE; try (intros X; discriminate X); try assumption.
        + apply all_names_app. split; [exact N1|exact Logic.I].
        + intros s b S J. apply (N2 s b); [right; exact S|exact J].
        + intros s b S J. apply (N3 s b); [right; exact S|exact J].
        + cbn [app] in N5. inversion N5; subst. assumption.
      - unfold SS. cbn [with_names with_elements emit o_events o_pending_element o_elements o_atts]. rewrite PE, flat_map_app. cbn [flat_map started_by app]. rewrite !app_nil_r. reflexivity. }
    cbn [o_names with_elements emit]. rewrite EN. exact G.
  Qed.

  Lemma body_consistent : forall body, fold_right (fun i b => consistent r i /\ b) True body -> Forall (consistent r) body /\ ~ (exists i, In i body /\ inconsistent i).
  Proof. intros body H. assert (F : Forall (consistent r) body) by (induction body as [|i body IH]; [constructor|destruct H; constructor; auto]). split; [exact F|]. intros (i & I & N). rewrite Forall_forall in F. exact (N r (F i I)). Qed.
  Definition is_attribute (i : instruction) : bool := match i with IAttribute _ _ _ _ => true | _ => false end.
  Definition named_step (i : instruction) : Prop := forall a o, Inv o -> o_buffering o = 0 -> o_declares o = true -> NI r a o -> consistent r i ->
    (exists a', NI r a' (execute i o)) /\
    match i with
    | IAttribute p l u b => o_pending_element (execute i o) = o_pending_element o /\ (o_pending_element o = false -> SS (execute i o) = SS o) /\
        (o_pending_element o = true -> forall pre l0 u0 acc, SS o = pre ++ [(l0, u0, acc)] -> SS (execute i o) = pre ++ [(l0, u0, put u l (direct_text b) acc)])
    | _ => o_pending_element (execute i o) = false /\ SS (execute i o) = SS o ++ starts i
    end.
  Lemma named_body : forall body, Forall named_step body -> forall a o, Inv o -> o_buffering o = 0 -> o_declares o = true -> NI r a o -> Forall (consistent r) body ->
    (exists a', NI r a' (executes body o)) /\ (o_pending_element o = false -> SS (executes body o) = SS o ++ flat_map starts body) /\
    (o_pending_element o = true -> forall pre l0 u0 acc, SS o = pre ++ [(l0, u0, acc)] -> SS (executes body o) = pre ++ [(l0, u0, leading body acc)] ++ flat_map starts body).
  Proof.
    unfold executes. induction 1 as [|i body H F IH]; intros a o IV B DE NV C; cbn [fold_left].
    - split; [eauto|]. cbn [flat_map leading]. split; [intros _; rewrite app_nil_r; reflexivity|]. intros _ pre l0 u0 acc E. rewrite E. cbn. reflexivity.
    - inversion C as [|? ? C1 C2]; subst. destruct (H a o IV B DE NV C1) as ((a' & NV') & R). destruct (execute_ok i o IV B) as (IV' & [K1 K2 K3 K4 K5 K6] & _). destruct (IH a' (execute i o) IV' (eq_trans K5 B) (eq_trans K3 DE) NV' C2) as (G1 & G2 & G3). split; [exact G1|].
      destruct i as [p l u b|p l u b|u l q v|d ch|b|t b]; try (destruct R as (R1 & R2); cbn [leading flat_map]; rewrite (G2 R1), R2; split; [intros _; rewrite <- app_assoc; reflexivity|intros _ pre l0 u0 acc E; rewrite E, <- !app_assoc; reflexivity]).
      destruct R as (R1 & R2 & R3). cbn [leading flat_map starts app]. split.
      + intros P. rewrite (G2 (eq_trans R1 P)), (R2 P). reflexivity.
      + intros P pre l0 u0 acc E. exact (G3 (eq_trans R1 P) pre l0 u0 _ (R3 P pre l0 u0 acc E)).
  Qed.
  Lemma buffered_names : forall a o b x, NI r a o -> 1 <= o_buffering o -> ~ (exists i, In i b /\ inconsistent i) -> x = executes b o -> exists es, Forall escaping es /\ x = quiet (if o_buffering o =? 1 then direct_text b else []) [] es o /\ NI r a x /\ SS x = SS o.
  Proof.
    intros a o b x NV L NC ->. destruct (quiet_body b o L) as (ex & es & E & FE & _ & X & _). destruct X as [->|X]; [|destruct (NC X)]. exists es. rewrite E. split; [exact FE|]. split; [reflexivity|]. apply quiet_names; assumption.
  Qed.
  Lemma named_ok : forall i, named_step i.
  Proof.
    intros i. induction i using instruction_ind'; intros a o IV B DE NV C; cbn [consistent] in C.
    - destruct C as (PL & UN & UE & CB). destruct (body_consistent b CB) as (CF & _). destruct (start_names a o p l u IV DE NV B PL UN UE) as (NV1 & S1). destruct (start_element_ok p l u o IV B) as (o1 & q & E & I1 & B1 & E1 & Q1 & S0 & D1 & C1 & P1 & A1). rewrite E in NV1, S1. cbn [fst] in NV1, S1. cbn [execute]. rewrite E.
      destruct (named_body b H a o1 I1 B1 (eq_trans D1 DE) NV1 CF) as ((a2 & NV2) & _ & G3). specialize (G3 P1 _ _ _ _ S1). destruct (body_ok b (proj2 (Forall_forall _ b) (fun i _ => execute_ok i)) o1 I1 B1) as (I2 & [K1 K2 K3 K4 K5 K6] & _). change (fold_left (fun (o0 : output) (i : instruction) => execute i o0) b o1) with (executes b o1). set (o2 := executes b o1) in *.
      destruct (end_names a2 l u o2 I2 (eq_trans K3 (eq_trans D1 DE)) NV2 (eq_trans K5 B1)) as (NV3 & S3); [rewrite K1, E1; discriminate|]. split; [eauto|]. split.
      + destruct (end_element_ok q l u (o_elements o) o2 I2) as (o3 & -> & _ & _ & _ & _ & _ & _ & P3 & _); [congruence|congruence|rewrite K2; exact Q1|exact P3].
      + rewrite S3, G3. reflexivity.
    - destruct C as (PL & UN & UE & CB). destruct (body_consistent b CB) as (_ & NC). cbn [execute]. unfold start_attribute, push_buffering. rewrite B. cbn [Z.eqb negb]. change (0 + 1) with 1. cbn [o_pending_element with_buffer with_buffering]. change (fold_left (fun (o0 : output) (i : instruction) => execute i o0) b) with (executes b). destruct (o_pending_element o) eqn:PE; cbn [negb].
      + destruct (declare_attr a o p u IV NV PE UN) as (a' & NV1 & FN & S1). cbn zeta in *. cbn [o_names with_buffer with_buffering o_atts]. set (n' := match u with [] => o_names o | _ => declare_namespace p u true (o_names o) end) in *. set (q := make_name (find_prefix n' u) l). rewrite aput_replace.
        destruct (put_attr a' (with_names n' o) l u (direct_text b) NV1 PE PL UE FN) as (NV2 & S2 & QN). destruct (put_attr a' (with_names n' o) l u [] NV1 PE PL UE FN) as (NV0 & _ & _). cbn [o_names o_atts with_names] in *. fold q in NV2, S2, QN, NV0. destruct (aput_index u l q (direct_text b) (o_atts o) QN) as (i & EI & LI & UP). rewrite EI.
        set (o1 := with_pending_attribute (Some i) _). destruct (NI_same a' (with_atts (aput u l q [] (o_atts o)) (with_names n' o)) o1 eq_refl eq_refl eq_refl eq_refl eq_refl NV0) as (NV3 & _). destruct (buffered_names a' o1 b _ NV3 ltac:(cbn; lia) NC eq_refl) as (es & FE & E & NV4 & _). rewrite E in *. change (o_buffering o1 =? 1) with true in *. cbv iota in *.
        unfold end_attribute, pop_buffering. cbn [o_buffering quiet o1 with_pending_attribute with_atts with_names with_buffer with_buffering Z.sub Z.add Z.opp Z.pos_sub Z.eqb negb o_pending_attribute o_atts o_buffer app]. rewrite app_nil_r. cbn [at_apply]. unfold checked. rewrite (proj2 (Nat.ltb_lt _ _) LI), UP.
        match goal with |- (exists a', NI r a' ?x) /\ _ => set (o3 := x) end.
        assert (Q : NI r a' o3 /\ SS o3 = SS (with_atts (aput u l q (direct_text b) (o_atts o)) (with_names n' o))).
        { destruct (quiet_names a' [] es _ FE NV2) as (X1 & X2). rewrite <- X2. apply NI_same; auto. cbn. rewrite app_nil_r. reflexivity. }
        destruct Q as (Q1 & Q2). split; [eauto|]. split; [exact PE|]. split; [congruence|]. intros _ pre l0 u0 acc ES. rewrite Q2. apply S2; [|congruence]. cbn. exact (proj1 (i_pending o IV PE)).
      + set (o1 := with_buffer [] (with_buffering 1 o)). destruct (NI_same a o o1 eq_refl eq_refl eq_refl eq_refl eq_refl NV) as (NV1 & S1). destruct (buffered_names a o1 b _ NV1 ltac:(cbn; lia) NC eq_refl) as (es & FE & E & NV4 & S4). rewrite E in *. unfold end_attribute, pop_buffering. cbn [o_buffering quiet o1 with_buffer with_buffering Z.sub Z.add Z.opp Z.pos_sub Z.eqb negb o_pending_attribute]. rewrite (i_attribute o IV).
        match goal with |- (exists a', NI r a' ?x) /\ _ => set (o3 := x) end. match type of NV4 with NI _ _ ?x => destruct (NI_same a x o3 eq_refl eq_refl eq_refl eq_refl eq_refl NV4) as (NV5 & S5) end. split; [eauto|]. split; [exact PE|]. split; [congruence|]. intros X; discriminate.
    - destruct C.
    - cbn [execute].
      assert (EMIT : forall e o, Inv o -> NI r a o -> NI r a (disable_output_escaping e o) /\ SS (disable_output_escaping e o) = SS o /\ o_pending_element (disable_output_escaping e o) = o_pending_element o).
      { clear. intros e o IV NV. unfold disable_output_escaping. rewrite (i_text o IV). destruct (emit_names a o (Escaping e)) as (X & Y); auto. }
      assert (CH : forall o, Inv o -> o_buffering o = 0 -> o_declares o = true -> NI r a o -> NI r a (characters c o) /\ SS (characters c o) = SS o /\ o_pending_element (characters c o) = false).
      { clear. intros o IV B DE NV. unfold characters. rewrite B. cbn [Z.eqb negb]. destruct (flush_element_ok o IV) as (I1 & _ & PE & PT & _). destruct (flush_names a o IV DE NV) as (NV1 & S1). set (o1 := flush_element o) in *. rewrite (i_attribute o1 I1).
        assert (G : forall o2, NI r a o2 -> SS o2 = SS o1 -> o_pending_element o2 = false -> NI r a (emit (Chars c) o2) /\ SS (emit (Chars c) o2) = SS o /\ o_pending_element (emit (Chars c) o2) = false).
        { intros o2 X Y Z. destruct (emit_names a o2 (Chars c) (fun _ => eq_refl) eq_refl X) as (V & W). split; [exact V|]. split; [congruence|exact Z]. }
        destruct (o_pending_text o1); [apply G; auto|]. destruct (NI_same a o1 (with_pending_text true o1) eq_refl eq_refl eq_refl eq_refl eq_refl NV1) as (NV2 & S2). destruct (is_cdata (with_pending_text true o1)); [|apply G; auto]. destruct (emit_names a (with_pending_text true o1) StartCdata (fun _ => eq_refl) eq_refl NV2) as (V & W). apply G; [exact V|congruence|exact PE]. }
      destruct d; cbn [starts]; rewrite app_nil_r.
      + destruct (EMIT true o IV NV) as (A1 & A2 & A3). assert (KD : kept o (disable_output_escaping true o)) by (unfold disable_output_escaping; rewrite (i_text o IV); constructor; auto).
        assert (ID : Inv (disable_output_escaping true o)). { unfold disable_output_escaping. rewrite (i_text o IV). destruct IV as [T A D P L1 L2 F]. constructor; cbn -[fold_left follow]; auto. rewrite follow_app, F. cbn. unfold opened. cbn. destruct (o_pending_text o && is_cdata o) eqn:E; unfold is_cdata in *; cbn in *; rewrite E; reflexivity. }
        destruct KD as [K1 K2 K3 K4 K5 K6]. destruct (CH _ ID (eq_trans K5 B) (eq_trans K3 DE) A1) as (B1 & B2 & B3). assert (TM : o_text_mode (characters c (disable_output_escaping true o)) = false).
        { pose proof (execute_ok (IText false c) _ ID (eq_trans K5 B)) as (X & _). cbn [execute] in X. exact (i_text _ X). }
        unfold disable_output_escaping at 1 3 5. rewrite TM. destruct (emit_names a (characters c (disable_output_escaping true o)) (Escaping false) (fun _ => eq_refl) eq_refl B1) as (V & W). split; [eauto|]. split; [exact B3|]. congruence.
      + destruct (CH o IV B DE NV) as (B1 & B2 & B3). split; [eauto|]. auto.
    - destruct (body_consistent b C) as (_ & NC). cbn [execute starts]. rewrite app_nil_r. change (fold_left (fun (o0 : output) (i : instruction) => execute i o0) b) with (executes b). unfold start_comment, push_buffering. rewrite B. cbn [Z.eqb negb]. change (0 + 1) with 1. rewrite flush_current_buffer. destruct (flush_current_ok o IV) as (I1 & K & PE & PT & _). destruct (flush_current_names a o IV DE NV) as (NV1 & S1).
      set (o1 := with_buffer [] (with_buffering 1 (flush_current o))). destruct (NI_same a (flush_current o) o1 eq_refl eq_refl eq_refl eq_refl eq_refl NV1) as (NV2 & S2). destruct (buffered_names a o1 b _ NV2 ltac:(cbn; lia) NC eq_refl) as (es & FE & E & NV4 & S4). rewrite E in *. unfold end_comment, pop_buffering. cbn [o_buffering quiet o1 with_buffer with_buffering Z.sub Z.add Z.opp Z.pos_sub Z.eqb negb o_text_mode o_buffer app]. rewrite (i_text _ I1).
      change (1 =? 1) with true. destruct (comment_lemma (direct_text b)) as (t & ER & _). match goal with |- context [comment_text ?x] => replace (comment_text x) with (Some t) by (symmetry; exact ER) end.
      match goal with |- (exists a', NI r a' (emit _ ?x)) /\ _ => set (o3 := x) end. match type of NV4 with NI _ _ ?x => destruct (NI_same a x o3 eq_refl eq_refl eq_refl eq_refl eq_refl NV4) as (NV5 & S5) end. destruct (emit_names a o3 (Comment t) (fun _ => eq_refl) eq_refl NV5) as (V & W). split; [eauto|]. split; [exact PE|]. congruence.
    - destruct (body_consistent b C) as (_ & NC). cbn [execute starts]. rewrite app_nil_r. change (fold_left (fun (o0 : output) (i : instruction) => execute i o0) b) with (executes b). unfold start_pi, push_buffering. rewrite B. cbn [Z.eqb negb]. change (0 + 1) with 1. rewrite flush_current_buffer. destruct (flush_current_ok o IV) as (I1 & K & PE & PT & _). destruct (flush_current_names a o IV DE NV) as (NV1 & S1).
      set (o1 := with_target t (with_buffer [] (with_buffering 1 (flush_current o)))). destruct (NI_same a (flush_current o) o1 eq_refl eq_refl eq_refl eq_refl eq_refl NV1) as (NV2 & S2). destruct (buffered_names a o1 b _ NV2 ltac:(cbn; lia) NC eq_refl) as (es & FE & E & NV4 & S4). rewrite E in *. unfold end_pi, pop_buffering. cbn [o_buffering quiet o1 with_target with_buffer with_buffering Z.sub Z.add Z.opp Z.pos_sub Z.eqb negb o_text_mode o_buffer app]. rewrite (i_text _ I1).
      destruct (pi_lemma (direct_text b)) as (t' & ER & _). match goal with |- context [pi_text ?x] => replace (pi_text x) with (Some t') by (symmetry; exact ER) end.
      match goal with |- (exists a', NI r a' (emit _ ?x)) /\ _ => set (o3 := x) end. match type of NV4 with NI _ _ ?x => destruct (NI_same a x o3 eq_refl eq_refl eq_refl eq_refl eq_refl NV4) as (NV5 & S5) end. match goal with |- (exists a', NI r a' (emit ?e _)) /\ _ => destruct (emit_names a o3 e (fun _ => eq_refl) eq_refl NV5) as (V & W) end. split; [eauto|]. split; [exact PE|]. congruence.
  Qed.
  Lemma new_names : forall d c, NI r (fun _ => []) (new_output false d c).
  Proof.
    intros d c. constructor; cbn; auto; try (intros X; discriminate X).
    - intros s b [<-|[]] [].
    - intros s b [].
    - constructor; [intros p u; cbn; tauto|constructor].
    - constructor; [intros b []|constructor].
  Qed.
  Lemma names_lemma : forall l c, Forall (consistent r) l -> let o := executes l (new_output false true c) in all_names_ok [] (o_events o) /\ flat_map started_by (o_events o) = flat_map starts l.
  Proof.
    intros l c C o. destruct (named_body l (proj2 (Forall_forall _ l) (fun i _ => named_ok i)) _ _ (new_inv true c) eq_refl eq_refl (new_names true c) C) as ((a & NV) & S & _). fold o in NV, S. specialize (S eq_refl). split; [exact (n_names _ _ _ NV)|]. destruct (executes_ok l (new_output false true c) (new_inv true c) eq_refl) as (_ & K & _). destruct K as [_ _ _ _ _ K6]. specialize (K6 eq_refl). fold o in K6. unfold SS in S at 1. rewrite K6, app_nil_r in S. exact S.
  Qed.
End Names.
