(** Proofs about attribute maps (C27). *)
From Verif.Model Require Import Base Chars AttrMap.
From Verif.Spec Require Import AttrMapSpec.
From Verif.Proof Require Import Tac ContainersProof.

(** * Lists *)
Lemma find_attr_none : forall w p l, find_attr w p l = None -> forall x, In x l -> p (w_attr w x) = false.
Proof. intros w p l F x I. apply (find_none _ _ F x I). Qed.
Lemma find_attr_ext : forall w w' p l, (forall b, In b l -> p (w_attr w' b) = p (w_attr w b)) -> find_attr w' p l = find_attr w p l.
Proof.
  intros w w' p. unfold find_attr. induction l as [|b l IH]; intro H; [reflexivity|]. cbn [find]. rewrite H by (left; reflexivity).
  rewrite IH; [reflexivity|]. intros; apply H; right; assumption.
Qed.
Lemma replace_first_none : forall q n l, (forall x, In x l -> q x = false) -> replace_first q n l = l.
Proof.
  induction l as [|y l IH]; intros H; cbn; [reflexivity|]. rewrite (H y) by (left; reflexivity).
  rewrite IH; [reflexivity|]. intros; apply H; right; assumption.
Qed.
(** The position found, and what erasing and replacing there give. *)
Lemma first_split : forall (q : nat -> bool) l o, find q l = Some o ->
  exists l1 l2, l = l1 ++ o :: l2 /\ q o = true /\ (forall x, In x l1 -> q x = false) /\
    erase_first q l = l1 ++ l2 /\ forall n, replace_first q n l = l1 ++ n :: l2.
Proof.
  induction l as [|y l IH]; intros o F; cbn in F; [discriminate|]. destruct (q y) eqn:E.
  - injection F as <-. exists [], l. cbn. rewrite E. repeat split; auto. intros x [].
  - destruct (IH o F) as (l1 & l2 & -> & Q & N & ER & RP). exists (y :: l1), l2. cbn. rewrite E, ER.
    repeat split; auto; [|intro n; rewrite RP; reflexivity]. intros x [<-|I]; auto.
Qed.

(** * What every history keeps *)
Definition tidy (w : world) : Prop := forall e,
  NoDup (e_attrs (w_elem w e)) /\
  forall a, In a (e_attrs (w_elem w e)) ->
    (a < w_next w)%nat /\ a_owner (w_attr w a) = Some e /\ a_orphan (w_attr w a) = false /\ a_doc (w_attr w a) = e_doc (w_elem w e).

Definition unlisted (w : world) (a : nat) : Prop := forall e, ~ In a (e_attrs (w_elem w e)).
Lemma orphan_unlisted : forall w a, tidy w -> is_orphaned (w_attr w a) = true -> unlisted w a.
Proof.
  intros w a T O e I. destruct (proj2 (T e) a I) as (_ & OW & OR & _). unfold is_orphaned in O. rewrite OW, OR in O. discriminate.
Qed.
Lemma fresh_unlisted : forall w, tidy w -> unlisted w (w_next w).
Proof. intros w T e I. destruct (proj2 (T e) _ I) as (L & _). lia. Qed.
Lemma nodup_swap : forall (l1 l2 : list nat) o n, NoDup (l1 ++ o :: l2) -> ~ In n (l1 ++ o :: l2) -> NoDup (l1 ++ n :: l2).
Proof.
  intros l1 l2 o n D N. apply NoDup_remove in D. destruct D as [D _].
  apply NoDup_Add with (a := n) (l := l1 ++ l2); [apply Add_app|]. split; [exact D|].
  intro I. apply N. rewrite in_app_iff in *. cbn. tauto.
Qed.
(** A change to an attribute that keeps owner, orphan flag and document. *)
Lemma tidy_put : forall w a f, tidy w ->
  (forall x, a_owner (f x) = a_owner x /\ a_orphan (f x) = a_orphan x /\ a_doc (f x) = a_doc x) -> tidy (put_attr w a f).
Proof.
  intros w a f T F e. destruct (T e) as [D A]. split; [exact D|]. intros b I. cbn in *. destruct (A b I) as (L & OW & OR & DC).
  destruct (Nat.eqb b a); [|auto]. destruct (F (w_attr w b)) as (-> & -> & ->). auto.
Qed.
Lemma tidy_put_unlisted : forall w a f, tidy w -> unlisted w a -> tidy (put_attr w a f).
Proof.
  intros w a f T U e. destruct (T e) as [D A]. split; [exact D|]. intros b I. cbn in *.
  destruct (Nat.eqb_spec b a) as [->|N]; [destruct (U e I)|]. apply A, I.
Qed.
Lemma tidy_new : forall w x, tidy w -> tidy (fst (new_attr w x)).
Proof.
  intros w x T e. destruct (T e) as [D A]. split; [exact D|]. intros b I. cbn in *. destruct (A b I) as (L & R).
  destruct (Nat.eqb_spec b (w_next w)) as [->|N]; [lia|]. split; [lia|exact R].
Qed.
Lemma base_tidy : forall w e a p, tidy w -> (a < w_next w)%nat -> unlisted w a ->
  tidy (fst (base_set (set_owner_element w a e) e a p)).
Proof.
  intros w e a p T L U. assert (T1 : tidy (set_owner_element w a e)) by (apply tidy_put_unlisted; assumption).
  unfold base_set. destruct (e_ro _); [exact T1|]. destruct (negb _) eqn:DC; [exact T1|].
  apply negb_false_iff, Nat.eqb_eq in DC. set (w1 := set_owner_element w a e) in *.
  assert (OW : a_owner (w_attr w1 a) = Some e) by (unfold w1; cbn; rewrite Nat.eqb_refl; reflexivity).
  assert (U1 : unlisted w1 a) by exact U.
  assert (L1 : (a < w_next w1)%nat) by exact L. clearbody w1.
  destruct (find_attr w1 p (e_attrs (w_elem w1 e))) as [old|] eqn:F; cbn [fst].
  - apply first_split in F. destruct F as (l1 & l2 & EL & Q & _ & _ & RP). cbv beta in RP. rewrite RP.
    assert (NO : old <> a) by (intros ->; apply (U1 e); rewrite EL; apply in_elt).
    intro e'. destruct (T1 e') as [D A]. cbn. destruct (Nat.eqb_spec e' e) as [->|NE]; cbn.
    + rewrite EL in D, A. split; [apply nodup_swap with old; auto; rewrite <- EL; apply U1|].
      intros b I. destruct (Nat.eqb_spec b old) as [->|NB].
      * exfalso. apply NoDup_remove in D. destruct D as [_ D]. apply D. rewrite in_app_iff in *. cbn in I. intuition congruence.
      * destruct (Nat.eqb_spec b a) as [->|NA]; cbn; [auto|].
        apply A. rewrite in_app_iff in *. cbn in *. intuition congruence.
    + split; [exact D|]. intros b I. destruct (A b I) as (LB & OB & OR & DB).
      destruct (Nat.eqb_spec b old) as [->|NB].
      * exfalso. destruct (proj2 (T1 e) old) as (_ & X & _); [rewrite EL; apply in_elt|]. congruence.
      * destruct (Nat.eqb_spec b a) as [->|NA]; cbn; [exfalso; apply (U1 e' I)|auto].
  - intro e'. destruct (T1 e') as [D A]. cbn. destruct (Nat.eqb_spec e' e) as [->|NE]; cbn.
    + split.
      * apply NoDup_Add with (a := a) (l := e_attrs (w_elem w1 e)); [|split; [exact D|apply U1]].
        rewrite <- (app_nil_r (e_attrs (w_elem w1 e))) at 1. apply Add_app.
      * intros b I. destruct (Nat.eqb_spec b a) as [->|NA]; cbn; [auto|].
        apply A. rewrite in_app_iff in I. cbn in I. intuition congruence.
    + split; [exact D|]. intros b I. destruct (Nat.eqb_spec b a) as [->|NA]; cbn; [exfalso; apply (U1 e' I)|apply A, I].
Qed.
Lemma map_tidy : forall w e a p, tidy w -> (a < w_next w)%nat -> tidy (fst (map_set w e a p)).
Proof.
  intros w e a p T L. unfold map_set. set (mine := match a_owner _ with Some _ => _ | None => _ end). clearbody mine.
  destruct (is_orphaned (w_attr w a)) eqn:O; cbn [negb andb].
  - destruct (e_ro _); [exact T|]. apply base_tidy; auto. apply orphan_unlisted; auto.
  - destruct mine; cbn [negb]; [exact T|]. destruct (e_ro (w_elem w e)); exact T.
Qed.
Lemma base_next : forall w e a p, w_next (fst (base_set w e a p)) = w_next w /\
  forall x, e_doc (w_elem (fst (base_set w e a p)) x) = e_doc (w_elem w x) /\ e_defaults (w_elem (fst (base_set w e a p)) x) = e_defaults (w_elem w x).
Proof.
  intros w e a p. unfold base_set. destruct (e_ro _); [auto|]. destruct (negb _); [auto|].
  destruct (find_attr _ _ _); cbn; (split; [reflexivity|]); intro x; destruct (Nat.eqb x e); auto.
Qed.
Lemma map_next : forall w e a p, w_next (fst (map_set w e a p)) = w_next w.
Proof.
  intros w e a p. unfold map_set. set (mine := match a_owner _ with Some _ => _ | None => _ end). clearbody mine.
  destruct (negb _ && mine); [reflexivity|]. destruct (e_ro _); [reflexivity|]. destruct (_ && _); [reflexivity|].
  exact (proj1 (base_next (set_owner_element w a e) e a p)).
Qed.
Lemma tidy_default : forall w e p ns, tidy w -> tidy (create_default w e p ns).
Proof.
  intros w e p ns T. unfold create_default. destruct (find _ _) as [t|]; [|exact T]. cbn [new_attr].
  set (x := level1 _ _ _ _). assert (T1 := tidy_new w x T). cbn [new_attr fst] in T1.
  unfold set_attribute_node_ns, set_attribute_node. destruct ns; apply map_tidy; auto; cbn; lia.
Qed.
Lemma tidy_read : forall w a, tidy w -> tidy (fst (read_value w a)).
Proof. intros w a T. apply tidy_put; auto. Qed.
Lemma tidy_get : forall w e p, tidy w -> tidy (fst (get_by w e p)).
Proof. intros w e p T. unfold get_by. destruct (find_attr _ _ _); [apply tidy_read|]; exact T. Qed.
Lemma get_next : forall w e p, w_next (fst (get_by w e p)) = w_next w /\ w_elem (fst (get_by w e p)) = w_elem w.
Proof. intros w e p. unfold get_by. destruct (find_attr _ _ _); auto. Qed.
(** Taking an attribute out of its list. *)
Lemma tidy_erase : forall w e p old, tidy w -> find_attr w p (e_attrs (w_elem w e)) = Some old ->
  tidy (put_attr (put_list w e (erase_first (fun x => p (w_attr w x)) (e_attrs (w_elem w e)))) old (set_orphan true)).
Proof.
  intros w e p old T F. apply first_split in F. destruct F as (l1 & l2 & EL & Q & _ & ER & _). cbv beta in ER. rewrite ER.
  intro e'. destruct (T e') as [D A]. cbn. destruct (Nat.eqb_spec e' e) as [->|NE]; cbn.
  - rewrite EL in D, A. assert (D2 := NoDup_remove _ _ _ D). destruct D2 as [D2 NI]. split; [exact D2|].
    intros b I. destruct (Nat.eqb_spec b old) as [->|NB]; [contradiction|]. apply A. rewrite in_app_iff in *. cbn. tauto.
  - split; [exact D|]. intros b I. destruct (A b I) as (LB & OB & OR & DB).
    destruct (Nat.eqb_spec b old) as [->|NB]; [|auto].
    exfalso. destruct (proj2 (T e) old) as (_ & X & _); [rewrite EL; apply in_elt|]. congruence.
Qed.
Lemma tidy_remove : forall w e p ns, tidy w -> tidy (fst (remove_by w e p ns)).
Proof.
  intros w e p ns T. unfold remove_by. destruct (e_ro _); [exact T|].
  destruct (find_attr w p (e_attrs (w_elem w e))) as [old|] eqn:F; [|exact T]. apply tidy_default, tidy_erase; assumption.
Qed.
Lemma drop_fst : forall r, fst (drop_reply r) = fst r.
Proof. intros [w []]; reflexivity. Qed.
Lemma tidy_call : forall w c, tidy w -> Forall (fun a => (a < w_next w)%nat) (passed c) -> tidy (fst (attr_call w c)).
Proof.
  intros w c T P.
  destruct c as [d n|d u q|e n|e u l|e n|e u l|e n|e u l|e n v|e u q v|e a|e a|e n|e u l|e a|e|e|a|a v|a v|a k v|a p]; cbn [attr_call].
  - unfold create_attribute. destruct (check_name n); [|exact T]. cbn [new_attr fst]. apply (tidy_new w), T.
  - unfold create_attribute_ns. destruct (check_name q); [|exact T]. destruct (ns_attr d u q true) as [x|]; [|exact T].
    cbn [new_attr fst]. apply (tidy_new w), T.
  - assert (X := tidy_get w e (name_is n) T). destruct (get_by w e (name_is n)). exact X.
  - assert (X := tidy_get w e (ns_name_is u l) T). destruct (get_by w e (ns_name_is u l)). exact X.
  - exact T.
  - exact T.
  - exact T.
  - exact T.
  - unfold set_attribute. destruct (check_name n); [|exact T].
    assert (X := tidy_get w e (name_is n) T). destruct (get_by w e (name_is n)) as [w0 s0]. cbn [fst] in X. cbn [new_attr].
    set (x := level1 _ _ _ _). assert (T1 := tidy_new w0 x X). cbn [new_attr fst] in T1. set (w1 := World _ _ _) in *.
    assert (B := base_tidy w1 e (w_next w0) (name_is n) T1).
    destruct (base_set (set_owner_element w1 (w_next w0) e) e (w_next w0) (name_is n)) as [w2 r]. cbn [fst] in B.
    assert (T2 : tidy w2) by (apply B; [cbn; lia|exact (fresh_unlisted w0 X)]). destruct r; cbn [fst]; assumption.
  - unfold set_attribute_ns. destruct (check_name q); [|exact T]. destruct (ns_attr _ u q false) as [x|]; [|exact T].
    cbn [new_attr]. assert (T1 := tidy_new w (set_texts [v] x) T). cbn [new_attr fst] in T1. set (w1 := World _ _ _) in *.
    assert (B := base_tidy w1 e (w_next w) (ns_name_is (uri_of x) (a_local x)) T1).
    destruct (base_set (set_owner_element w1 (w_next w) e) e (w_next w) _) as [w2 r]. cbn [fst] in B.
    assert (T2 : tidy w2) by (apply B; [cbn; lia|exact (fresh_unlisted w T)]). destruct r; cbn [fst]; assumption.
  - apply map_tidy; [exact T|]. inversion P; assumption.
  - apply map_tidy; [exact T|]. inversion P; assumption.
  - unfold remove_attribute. assert (X := tidy_get w e (name_is n) T). destruct (get_by w e (name_is n)). rewrite drop_fst. apply tidy_remove, X.
  - unfold remove_attribute_ns. rewrite drop_fst. apply tidy_remove, T.
  - unfold remove_attribute_node. destruct (a_owner _) as [o|]; [|exact T]. destruct (Nat.eqb o e); [|exact T].
    assert (X := tidy_remove w e (name_is (a_name (w_attr w a))) false T). destruct (remove_by w e _ false) as [w1 []]; exact X.
  - cbn [fst]. assert (G : forall ts w, tidy w -> tidy (get_defaults_from w e ts)).
    { clear. induction ts as [|t ts IH]; intros w T; cbn [get_defaults_from]; [exact T|].
      destruct (find_attr _ _ _); [apply IH, T|]. cbn [new_attr]. apply IH.
      set (x := level1 _ _ _ _). assert (T1 := tidy_new w x T). cbn [new_attr fst] in T1.
      apply map_tidy; [exact T1|cbn; lia]. }
    apply G, T.
  - cbn [fst]. intro e'. destruct (T e') as [D A]. cbn. 
    assert (Q : forall b, a_owner (if existsb (Nat.eqb b) (e_attrs (w_elem w e)) then set_a_ro true (w_attr w b) else w_attr w b) = a_owner (w_attr w b) /\
      a_orphan (if existsb (Nat.eqb b) (e_attrs (w_elem w e)) then set_a_ro true (w_attr w b) else w_attr w b) = a_orphan (w_attr w b) /\
      a_doc (if existsb (Nat.eqb b) (e_attrs (w_elem w e)) then set_a_ro true (w_attr w b) else w_attr w b) = a_doc (w_attr w b))
      by (intro b; destruct (existsb _ _); auto).
    destruct (Nat.eqb e' e); cbn; (split; [exact D|]); intros b I; destruct (Q b) as (-> & -> & ->); apply A, I.
  - apply (tidy_read w a), T.
  - unfold set_value. destruct (a_ro _); [exact T|]. apply tidy_put; auto.
  - unfold append_text. assert (T1 : tidy (put_attr w a (set_cache None))) by (apply tidy_put; auto).
    destruct (a_ro _); [exact T1|]. apply tidy_put; auto.
  - unfold edit_text. destruct (a_ro _); [exact T|]. apply tidy_put; auto.
  - unfold set_prefix. destruct (a_uri _) as [u|]; [|destruct (is_empty _); exact T].
    destruct (is_empty p); [apply tidy_put; auto|]. destruct (check_prefix (Some p) u); [|exact T]. apply tidy_put; auto.
Qed.
Lemma reach_tidy : forall w, attr_reach w -> tidy w.
Proof.
  induction 1 as [docs dflt|w c R IH P]; [|apply tidy_call; auto]. intro e. cbn. split; [constructor|]. intros a [].
Qed.

(** * Level 1: the code keeps the map of the specification *)
Section Level1.
Context (docs : nat -> nat) (dflt : nat -> list default_attr).
Definition names_in (w : world) (l : list nat) : list str := map (fun a => a_name (w_attr w a)) l.
Record shows (w : world) (v : view) : Prop := {
  sh_tidy : tidy w;
  sh_next : w_next w = v_next v;
  sh_elem : forall e, e_doc (w_elem w e) = docs e /\ e_defaults (w_elem w e) = dflt e /\ e_ro (w_elem w e) = v_closed v e;
  sh_attr : forall a, (a < w_next w)%nat ->
    a_doc (w_attr w a) = v_doc v a /\ a_name (w_attr w a) = v_name v a /\ a_ro (w_attr w a) = v_fixed v a /\
    concat (a_texts (w_attr w a)) = v_value v a /\ node_value (w_attr w a) = v_value v a;
  sh_owner : forall a e, (a < w_next w)%nat -> (v_owner v a = Some e <-> In a (e_attrs (w_elem w e)));
  sh_free : forall a, (a < w_next w)%nat -> v_owner v a = None -> is_orphaned (w_attr w a) = true;
  sh_names : forall e, NoDup (names_in w (e_attrs (w_elem w e)));
  sh_at : forall e n a, v_at v e n = Some a <-> In a (e_attrs (w_elem w e)) /\ a_name (w_attr w a) = n }.

Lemma nodup_map_inj : forall {A B} (f : A -> B) l x y, NoDup (map f l) -> In x l -> In y l -> f x = f y -> x = y.
Proof.
  induction l as [|z l IH]; intros x y D IX IY E; [destruct IX|]. inversion D as [|? ? N D2]; subst.
  destruct IX as [->|IX], IY as [->|IY]; auto; exfalso; apply N.
  - rewrite E. apply in_map, IY.
  - rewrite <- E. apply in_map, IX.
Qed.
Lemma find_name : forall w n l, NoDup (names_in w l) -> forall a,
  find_attr w (name_is n) l = Some a <-> In a l /\ a_name (w_attr w a) = n.
Proof.
  intros w n l D a. split.
  - intro F. apply find_some in F. destruct F as [I E]. split; [exact I|]. apply str_eqb_true, E.
  - intros [I E]. destruct (find_attr w (name_is n) l) as [b|] eqn:F.
    + apply find_some in F. destruct F as [J Q]. apply str_eqb_true in Q. f_equal.
      apply (nodup_map_inj (fun a => a_name (w_attr w a)) l); auto. congruence.
    + assert (X := find_attr_none _ _ _ F a I). unfold name_is in X. apply str_eqb_false in X. contradiction.
Qed.
Lemma shows_find : forall w v e n, shows w v -> find_attr w (name_is n) (e_attrs (w_elem w e)) = v_at v e n.
Proof.
  intros w v e n S. destruct (find_attr w (name_is n) _) as [a|] eqn:F.
  - apply find_name in F; [|apply S]. symmetry. apply (sh_at w v S), F.
  - destruct (v_at v e n) as [a|] eqn:E; [|reflexivity]. apply (sh_at w v S) in E. apply find_name in E; [|apply S]. congruence.
Qed.
Lemma shows_at_lt : forall w v e n a, shows w v -> v_at v e n = Some a -> (a < w_next w)%nat.
Proof. intros w v e n a S E. apply (sh_at w v S) in E. apply (proj2 (sh_tidy w v S e) a), E. Qed.

(** Reading a value changes nothing that shows. *)
Lemma shows_put : forall w v a f, shows w v ->
  (forall x, a_owner (f x) = a_owner x /\ a_orphan (f x) = a_orphan x /\ a_doc (f x) = a_doc x /\ a_name (f x) = a_name x /\ a_ro (f x) = a_ro x) ->
  (a < w_next w)%nat -> forall s, concat (a_texts (f (w_attr w a))) = s -> node_value (f (w_attr w a)) = s ->
  shows (put_attr w a f) (assign v a s).
Proof.
  intros w v a f S F L s E1 E2.
  assert (NM : forall b, a_name (w_attr (put_attr w a f) b) = a_name (w_attr w b)).
  { intro b. cbn. destruct (Nat.eqb b a); [apply F|reflexivity]. }
  constructor.
  - apply tidy_put; [apply S|]. intro x. destruct (F x) as (A & B & C & _). auto.
  - apply S.
  - apply (sh_elem w v S).
  - intros b LB. cbn. destruct (sh_attr w v S b LB) as (A1 & A2 & A3 & A4 & A5).
    destruct (Nat.eqb_spec b a) as [->|]; [|auto]. destruct (F (w_attr w a)) as (_ & _ & -> & -> & ->). auto.
  - apply (sh_owner w v S).
  - intros b LB O. cbn. assert (X := sh_free w v S b LB O). destruct (Nat.eqb b a); [|exact X].
    unfold is_orphaned in *. destruct (F (w_attr w b)) as (-> & -> & _). exact X.
  - intro e. unfold names_in. erewrite map_ext; [apply (sh_names w v S e)|]. intro b. apply NM.
  - intros e n b. rewrite NM. apply (sh_at w v S).
Qed.
(** The same, when nothing of the view changes. *)
Lemma shows_put_same : forall w v a f, shows w v ->
  (forall x, a_owner (f x) = a_owner x /\ a_orphan (f x) = a_orphan x /\ a_doc (f x) = a_doc x /\ a_name (f x) = a_name x /\ a_ro (f x) = a_ro x) ->
  (a < w_next w)%nat -> concat (a_texts (f (w_attr w a))) = v_value v a -> node_value (f (w_attr w a)) = v_value v a ->
  shows (put_attr w a f) v.
Proof.
  intros w v a f S F L E1 E2. destruct (shows_put w v a f S F L _ E1 E2) as [T N E A O FR NM AT].
  constructor; auto. intros b LB. specialize (A b LB). cbn [v_doc v_name v_fixed v_value assign] in A.
  revert A. destruct (Nat.eqb_spec b a) as [X|]; [rewrite X|]; auto.
Qed.
Lemma shows_read : forall w v a, shows w v -> (a < w_next w)%nat -> shows (fst (read_value w a)) v /\ snd (read_value w a) = v_value v a.
Proof.
  intros w v a S L. destruct (sh_attr w v S a L) as (_ & _ & _ & E1 & E2). split; [|exact E2].
  apply shows_put_same; auto.
Qed.
Lemma shows_get : forall w v e n, shows w v ->
  shows (fst (get_by w e (name_is n))) v /\ snd (get_by w e (name_is n)) = value_at v e n.
Proof.
  intros w v e n S. unfold get_by, value_at. rewrite (shows_find w v e n S).
  destruct (v_at v e n) as [a|] eqn:E; [|auto]. apply shows_read; [exact S|]. apply (shows_at_lt w v e n a S E).
Qed.
Lemma shows_new : forall w v x s, shows w v -> a_owner x = None -> a_cache x = None -> a_ro x = false -> concat (a_texts x) = s ->
  shows (fst (new_attr w x)) (make v (a_doc x) (a_name x) s).
Proof.
  intros w v x s S OX CX RX TX. assert (T := sh_tidy w v S). assert (NX := sh_next w v S).
  assert (LT : forall e b, In b (e_attrs (w_elem w e)) -> (b < w_next w)%nat) by (intros e b I; apply (proj2 (T e) b I)).
  constructor; cbn [new_attr fst w_next w_elem w_attr make v_next v_doc v_name v_value v_fixed v_owner v_at v_closed].
  - apply (tidy_new w), T.
  - rewrite NX. reflexivity.
  - apply (sh_elem w v S).
  - intros b LB. rewrite NX. destruct (Nat.eqb_spec b (v_next v)) as [->|N].
    + unfold node_value. rewrite CX. auto.
    + apply (sh_attr w v S). lia.
  - intros b e LB. destruct (Nat.eqb_spec b (v_next v)) as [->|N].
    + split; [discriminate|]. intro I. apply LT in I. lia.
    + apply (sh_owner w v S). lia.
  - intros b LB O. rewrite NX. destruct (Nat.eqb_spec b (v_next v)) as [->|N].
    + unfold is_orphaned. rewrite OX. reflexivity.
    + apply (sh_free w v S); [lia|exact O].
  - intro e. unfold names_in. erewrite map_ext_in; [apply (sh_names w v S e)|]. intros b I. cbn.
    apply LT in I. destruct (Nat.eqb_spec b (w_next w)) as [->|]; [lia|reflexivity].
  - intros e n b. rewrite (sh_at w v S). split; intros [I E]; (split; [exact I|]); assert (L := LT e b I);
      destruct (Nat.eqb_spec b (w_next w)) as [->|]; try lia; exact E.
Qed.
(** An attribute that belongs to no element is put into a list. *)
Lemma shows_attach : forall w v e a, shows w v -> (a < w_next w)%nat -> v_owner v a = None -> v_doc v a = docs e -> v_closed v e = false ->
  shows (fst (base_set (set_owner_element w a e) e a (name_is (v_name v a)))) (attach v e a) /\
  snd (base_set (set_owner_element w a e) e a (name_is (v_name v a))) = RAttr (v_at v e (v_name v a)).
Proof.
  intros w v e a S L O DC CL. assert (T := sh_tidy w v S). assert (NX := sh_next w v S).
  assert (U : unlisted w a) by (intros e' I; apply (sh_owner w v S) in I; [congruence|exact L]).
  destruct (sh_elem w v S e) as (ED & _ & ER). destruct (sh_attr w v S a L) as (AD & AN & _).
  set (n := v_name v a) in *. set (w1 := set_owner_element w a e).
  assert (P : forall l, ~ In a l -> find_attr w1 (name_is n) l = find_attr w (name_is n) l).
  { intros l N. apply find_attr_ext. intros b I. cbn. destruct (Nat.eqb_spec b a) as [->|]; [contradiction|reflexivity]. }
  assert (B := base_tidy w e a (name_is n) T L U). fold w1 in B.
  assert (F : find_attr w1 (name_is n) (e_attrs (w_elem w1 e)) = v_at v e n).
  { cbn [w1 set_owner_element put_attr w_elem]. rewrite P by apply U. apply shows_find, S. }
  revert B. unfold base_set. rewrite F.
  assert (R1 : e_ro (w_elem w1 e) = false) by (cbn; congruence). rewrite R1.
  assert (D1 : a_doc (w_attr w1 a) = e_doc (w_elem w1 e)) by (cbn; rewrite Nat.eqb_refl; cbn; congruence).
  rewrite D1, Nat.eqb_refl. cbn [negb].
  assert (SH : forall w2, tidy w2 -> w_next w2 = w_next w ->
    (forall x, e_doc (w_elem w2 x) = e_doc (w_elem w x) /\ e_defaults (w_elem w2 x) = e_defaults (w_elem w x) /\ e_ro (w_elem w2 x) = e_ro (w_elem w x)) ->
    (forall b, a_doc (w_attr w2 b) = a_doc (w_attr w b) /\ a_name (w_attr w2 b) = a_name (w_attr w b) /\ a_ro (w_attr w2 b) = a_ro (w_attr w b) /\
      a_texts (w_attr w2 b) = a_texts (w_attr w b) /\ a_cache (w_attr w2 b) = a_cache (w_attr w b)) ->
    (forall b, b <> a -> a_owner (w_attr w2 b) = a_owner (w_attr w b)) ->
    (forall b, b <> a -> a_orphan (w_attr w2 b) = if match v_at v e n with Some o => Nat.eqb b o | None => false end then true else a_orphan (w_attr w b)) ->
    (forall x b, In b (e_attrs (w_elem w2 x)) <-> (x = e /\ b = a) \/ (In b (e_attrs (w_elem w x)) /\ ~ (x = e /\ v_at v e n = Some b))) ->
    (forall x, NoDup (names_in w (e_attrs (w_elem w2 x)))) ->
    shows w2 (attach v e a)).
  { intros w2 T2 N2 E2 A2 O2 OR2 I2 ND2. constructor.
    - exact T2.
    - cbn. congruence.
    - intro x. destruct (E2 x) as (-> & -> & ->). apply (sh_elem w v S).
    - intros b LB. rewrite N2 in LB. destruct (A2 b) as (-> & -> & -> & TE & CE). unfold node_value. rewrite TE, CE. apply (sh_attr w v S b LB).
    - intros b x LB. rewrite N2 in LB. rewrite I2. cbn [attach v_owner]. fold n.
      destruct (Nat.eqb_spec b a) as [->|NB].
      + split; [intro X; injection X as <-; auto|]. intros [[-> _]|[I _]]; [reflexivity|destruct (U x I)].
      + rewrite <- (sh_owner w v S b x LB). destruct (v_at v e n) as [o|] eqn:AT.
        * destruct (Nat.eqb_spec b o) as [->|NO].
          -- split; [discriminate|]. intros [[_ X]|[X Y]]; [contradiction|]. exfalso. apply Y. split; [|reflexivity].
             apply (sh_at w v S) in AT. destruct AT as [AT _]. apply (sh_owner w v S o e LB) in AT. congruence.
          -- split; [intro X; right; split; [exact X|intros [_ Y]; congruence]|]. intros [[_ X]|[X _]]; [contradiction|exact X].
        * split; [intro X; right; split; [exact X|intros [_ Y]; discriminate]|]. intros [[_ X]|[X _]]; [contradiction|exact X].
    - intros b LB. rewrite N2 in LB. cbn [attach v_owner]. fold n. destruct (Nat.eqb_spec b a) as [->|NB]; [discriminate|].
      intro OB. unfold is_orphaned. rewrite (O2 b NB), (OR2 b NB). destruct (v_at v e n) as [o|] eqn:AT.
      + destruct (Nat.eqb_spec b o) as [->|NO]; [destruct (a_owner _); reflexivity|]. apply (sh_free w v S b LB OB).
      + apply (sh_free w v S b LB OB).
    - intro x. unfold names_in. erewrite map_ext; [apply (ND2 x)|]. intro b. apply A2.
    - intros x m b. rewrite I2. destruct (A2 b) as (_ & -> & _). cbn [attach v_at]. fold n.
      destruct (Nat.eqb_spec x e) as [->|NE]; cbn [andb].
      + destruct (str_eqb m n) eqn:Q.
        * apply str_eqb_true in Q. subst m. split.
          -- intro X. injection X as <-. auto.
          -- intros [[[_ ->]|[I Y]] NM]; [reflexivity|]. exfalso. apply Y. split; [reflexivity|]. apply (sh_at w v S). auto.
        * apply str_eqb_false in Q. rewrite (sh_at w v S). split.
          -- intros [I NM]. split; [|exact NM]. right. split; [exact I|]. intros [_ Y]. apply (sh_at w v S) in Y. destruct Y. congruence.
          -- intros [[[_ ->]|[I Y]] NM]; [congruence|auto].
      + rewrite (sh_at w v S). split.
        * intros [I NM]. split; [|exact NM]. right. split; [exact I|]. intros [Y _]. contradiction.
        * intros [[[Y _]|[I Y]] NM]; [contradiction|auto]. }
  destruct (v_at v e n) as [old|] eqn:AT; cbn [fst snd]; intro B; (split; [|reflexivity]); apply SH; clear SH;
    cbn [put_attr put_list w1 set_owner_element w_next w_elem w_attr]; try reflexivity; try exact B.
  - intro x. destruct (Nat.eqb x e); auto.
  - intro b. destruct (Nat.eqb b old), (Nat.eqb b a); auto 6.
  - intros b NB. apply Nat.eqb_neq in NB. rewrite NB. destruct (Nat.eqb b old); reflexivity.
  - intros b NB. apply Nat.eqb_neq in NB. rewrite NB. destruct (Nat.eqb b old); reflexivity.
  - intros x b. apply first_split in F. destruct F as (l1 & l2 & EL & _ & _ & _ & RP).
    cbn [w1 set_owner_element put_attr w_elem w_attr] in EL, RP. rewrite RP.
    destruct (Nat.eqb_spec x e) as [->|NE]; cbn [e_attrs].
    + assert (D := proj1 (T e)). rewrite EL in *. apply NoDup_remove in D. destruct D as [_ D].
      rewrite !in_app_iff in *. cbn. split.
      * intros [I|[->|I]]; [right|auto|right]; (split; [tauto|]); intros [_ Y]; injection Y as ->; tauto.
      * intros [[_ ->]|[[I|[->|I]] Y]]; auto. exfalso. apply Y. auto.
    + split; [intro I; right; split; [exact I|intros [Y _]; contradiction]|]. intros [[Y _]|[I _]]; [contradiction|exact I].
  - intro x. apply first_split in F. destruct F as (l1 & l2 & EL & Q & _ & _ & RP).
    cbn [w1 set_owner_element put_attr w_elem w_attr] in EL, RP, Q. rewrite RP.
    destruct (Nat.eqb_spec x e) as [->|NE]; cbn [e_attrs]; [|apply (sh_names w v S)].
    assert (D := sh_names w v S e). rewrite EL in D. unfold names_in in *. rewrite map_app in *. cbn [map] in *.
    apply (sh_at w v S) in AT. destruct AT as [_ AT]. rewrite AT in D. rewrite AN. exact D.
  - intro x. destruct (Nat.eqb x e); auto.
  - intro b. destruct (Nat.eqb b a); auto 6.
  - intros b NB. apply Nat.eqb_neq in NB. rewrite NB. reflexivity.
  - intros b NB. apply Nat.eqb_neq in NB. rewrite NB. reflexivity.
  - intros x b. destruct (Nat.eqb_spec x e) as [->|NE]; cbn [e_attrs].
    + rewrite in_app_iff. cbn. split; [intros [I|[->|[]]]; [right|auto]; split; [exact I|intros [_ Y]; discriminate]|].
      intros [[_ ->]|[I _]]; auto.
    + split; [intro I; right; split; [exact I|intros [Y _]; contradiction]|]. intros [[Y _]|[I _]]; [contradiction|exact I].
  - intro x. destruct (Nat.eqb_spec x e) as [->|NE]; cbn [e_attrs]; [|apply (sh_names w v S)].
    unfold names_in. rewrite map_app. cbn [map]. rewrite AN.
    apply NoDup_Add with (a := n) (l := map (fun b => a_name (w_attr w b)) (e_attrs (w_elem w e))).
    + rewrite <- (app_nil_r (map _ _)) at 1. apply Add_app.
    + split; [apply (sh_names w v S)|]. intro I. apply in_map_iff in I. destruct I as (b & NB & IB).
      assert (X : v_at v e n = Some b) by (apply (sh_at w v S); auto). congruence.
Qed.
(** An attribute is taken out of its element's list. *)
Lemma shows_detach : forall w v e n a, shows w v -> v_at v e n = Some a ->
  shows (put_attr (put_list w e (erase_first (fun x => name_is n (w_attr w x)) (e_attrs (w_elem w e)))) a (set_orphan true)) (detach v e a).
Proof.
  intros w v e n a S AT. assert (T := sh_tidy w v S). assert (NX := sh_next w v S).
  assert (F := shows_find w v e n S). rewrite AT in F. assert (T2 := tidy_erase w e (name_is n) a T F).
  assert (AT2 := AT). apply (sh_at w v S) in AT2. destruct AT2 as [IA NA].
  assert (LA := shows_at_lt w v e n a S AT). destruct (sh_attr w v S a LA) as (_ & AN & _).
  apply first_split in F. destruct F as (l1 & l2 & EL & Q & _ & ER & _). cbv beta in ER. rewrite ER in *.
  assert (D := proj1 (T e)). rewrite EL in D. apply NoDup_remove in D. destruct D as [_ D].
  assert (IN : forall b, In b (l1 ++ l2) <-> In b (e_attrs (w_elem w e)) /\ b <> a).
  { intro b. rewrite EL. rewrite !in_app_iff in *. cbn. split; [intro I; split; [tauto|intros ->; tauto]|]. intuition congruence. }
  constructor; [exact T2| | | | | | |]; cbn [put_attr put_list w_next w_elem w_attr detach v_next v_doc v_name v_value v_fixed v_owner v_at v_closed].
  - exact NX.
  - intro x. destruct (Nat.eqb x e); apply (sh_elem w v S).
  - intros b LB. assert (X := sh_attr w v S b LB). destruct (Nat.eqb b a); exact X.
  - intros b x LB. destruct (Nat.eqb_spec b a) as [->|NB].
    + split; [discriminate|]. destruct (Nat.eqb_spec x e) as [->|NE]; cbn [e_attrs].
      * intro I. apply IN in I. tauto.
      * intro I. exfalso. destruct (proj2 (T x) a I) as (_ & X & _). destruct (proj2 (T e) a IA) as (_ & Y & _). congruence.
    + rewrite (sh_owner w v S b x LB). destruct (Nat.eqb_spec x e) as [->|NE]; cbn [e_attrs]; [|tauto]. rewrite IN. tauto.
  - intros b LB. destruct (Nat.eqb_spec b a) as [->|NB].
    + intros _. unfold is_orphaned. cbn. destruct (a_owner _); reflexivity.
    + apply (sh_free w v S b LB).
  - intro x. unfold names_in. erewrite map_ext; [|intro b; instantiate (1 := fun b => a_name (w_attr w b)); cbn; destruct (Nat.eqb b a); reflexivity].
    destruct (Nat.eqb_spec x e) as [->|NE]; cbn [e_attrs]; [|apply (sh_names w v S)].
    assert (DN := sh_names w v S e). unfold names_in in DN. rewrite EL, map_app in DN. cbn [map] in DN. apply NoDup_remove in DN.
    rewrite map_app. apply DN.
  - intros x m b. assert (X : a_name (if Nat.eqb b a then set_orphan true (w_attr w b) else w_attr w b) = a_name (w_attr w b)) by (destruct (Nat.eqb b a); reflexivity).
    rewrite X. destruct (Nat.eqb_spec x e) as [->|NE]; cbn [andb e_attrs]; [|apply (sh_at w v S)].
    rewrite IN. rewrite <- AN, NA. destruct (str_eqb m n) eqn:QM.
    + apply str_eqb_true in QM. subst m. split; [discriminate|]. intros [[I NB] NM]. exfalso. apply NB.
      apply (nodup_map_inj (fun a => a_name (w_attr w a)) (e_attrs (w_elem w e))); auto; [apply (sh_names w v S e)|congruence].
    + apply str_eqb_false in QM. rewrite (sh_at w v S). split; [intros [I NM]; split; [|exact NM]; split; [exact I|intros ->; congruence]|tauto].
Qed.
Lemma default_name : forall n t, default_match (name_is n) t = str_eqb (t_name t) n.
Proof. reflexivity. Qed.
Lemma shows_drop : forall w v e n a, shows w v -> v_closed v e = false -> v_at v e n = Some a ->
  shows (fst (remove_by w e (name_is n) false)) (drop docs dflt v e a) /\ snd (remove_by w e (name_is n) false) = RAttr (Some a).
Proof.
  intros w v e n a S CL AT. unfold remove_by. destruct (sh_elem w v S e) as (ED & EF & ER). rewrite ER, CL.
  rewrite (shows_find w v e n S), AT. cbn [fst snd]. split; [|reflexivity].
  assert (S1 := shows_detach w v e n a S AT). set (w1 := put_attr _ _ _) in *.
  assert (AN : v_name v a = n).
  { assert (X := AT). apply (sh_at w v S) in X. destruct X as [_ X].
    destruct (sh_attr w v S a (shows_at_lt w v e n a S AT)) as (_ & Y & _). congruence. }
  destruct (sh_elem w1 _ S1 e) as (ED1 & EF1 & ER1).
  unfold create_default, drop, declared. rewrite EF1, AN.
  change (find (default_match (name_is n)) (dflt e)) with (find (fun t => str_eqb (t_name t) n) (dflt e)).
  destruct (find _ _) as [t|] eqn:FT; [|exact S1].
  assert (TN : t_name t = n) by (apply find_some in FT; apply str_eqb_true, FT).
  cbn [new_attr]. set (x := level1 _ _ _ _).
  assert (S2 := shows_new w1 _ x (t_value t) S1 eq_refl eq_refl eq_refl (app_nil_r _)). cbn [new_attr fst x level1 a_doc a_name] in S2.
  rewrite ED1, TN in S2. fold x in S2. 
  assert (XN : x = level1 (docs e) n [t_value t] true) by (unfold x; rewrite ED1, TN; reflexivity). rewrite XN in *. clear x XN.
  set (w2 := World _ _ _) in *. set (v2 := make _ _ _ _) in *.
  assert (NX : w_next w1 = v_next v) by (apply (sh_next w1 _ S1)).
  unfold set_attribute_node.
  assert (W2 : w_attr w2 (w_next w1) = level1 (docs e) n [t_value t] true) by (unfold w2; cbn; rewrite Nat.eqb_refl; reflexivity).
  unfold map_set. rewrite W2. cbn [level1 is_orphaned a_owner negb andb a_name].
  destruct (sh_elem w2 v2 S2 e) as (_ & _ & ER2). rewrite ER2. cbn [v2 make v_closed detach]. rewrite CL. rewrite NX in *.
  assert (VN : v_name v2 (v_next v) = n) by (cbn; rewrite Nat.eqb_refl; reflexivity).
  destruct (shows_attach w2 v2 e (v_next v) S2) as [R _].
  - rewrite (sh_next w2 v2 S2). cbn. lia.
  - cbn. rewrite Nat.eqb_refl. reflexivity.
  - cbn. rewrite Nat.eqb_refl. reflexivity.
  - exact CL.
  - rewrite VN in R. exact R.
Qed.
Lemma name_ok_check : forall n, check_name n = name_ok n.
Proof. intros [|c n]; reflexivity. Qed.
(** Every call: the same reply, and the views stay together. *)
Lemma shows_call : forall w v c, shows w v -> suits docs v c ->
  shows (fst (attr_call w c)) (fst (call_spec docs dflt v c)) /\ snd (attr_call w c) = snd (call_spec docs dflt v c).
Proof.
  intros w v c S SU. assert (NX := sh_next w v S).
  destruct c as [d n|d u q|e n|e u l|e n|e u l|e n|e u l|e n s|e u q s|e a|e a|e n|e u l|e a|e|e|a|a s|a s|a k s|a p]; cbn [suits] in SU; try contradiction; cbn [attr_call call_spec].
  - unfold create_attribute. rewrite name_ok_check. destruct (name_ok n); [|auto]. cbn [new_attr fst snd]. rewrite <- NX. split; [|reflexivity].
    apply (shows_new w v (level1 d n [] true) [] S eq_refl eq_refl eq_refl eq_refl).
  - destruct (shows_get w v e n S) as [A B]. destruct (get_by w e (name_is n)) as [w1 x]. cbn in *. subst x. auto.
  - rewrite (shows_find w v e n S). auto.
  - rewrite (shows_find w v e n S). auto.
  - unfold set_attribute. rewrite name_ok_check. destruct (name_ok n); cbn [negb]; [|auto].
    destruct (shows_get w v e n S) as [S0 _]. assert (G := get_next w e (name_is n)).
    destruct (get_by w e (name_is n)) as [w0 x0]. cbn [fst] in S0, G. destruct G as [G1 G2].
    cbn [new_attr]. set (x := level1 _ _ _ _).
    destruct (sh_elem w v S e) as (ED & _ & ER).
    assert (S2 := shows_new w0 v x s S0 eq_refl eq_refl eq_refl (app_nil_r _)). cbn [new_attr fst x level1 a_doc a_name] in S2.
    rewrite ED in S2. fold x in S2.
    assert (XN : x = level1 (docs e) n [s] false) by (unfold x; rewrite ED; reflexivity). rewrite XN in *. clear x XN.
    set (w1 := World _ _ _) in *. set (v2 := make _ _ _ _) in *.
    assert (NX0 : w_next w0 = v_next v) by (apply (sh_next w0 _ S0)). rewrite NX0 in *.
    destruct (v_closed v e) eqn:CL.
    + unfold base_set. assert (e_ro (w_elem (set_owner_element w1 (v_next v) e) e) = true) as ->.
      { cbn. rewrite G2. congruence. } auto.
    + assert (VN : v_name v2 (v_next v) = n) by (cbn; rewrite Nat.eqb_refl; reflexivity).
      destruct (shows_attach w1 v2 e (v_next v) S2) as [R1 R2].
      * rewrite (sh_next w1 v2 S2). cbn. lia.
      * cbn. rewrite Nat.eqb_refl. reflexivity.
      * cbn. rewrite Nat.eqb_refl. reflexivity.
      * exact CL.
      * rewrite VN in R1, R2. destruct (base_set _ _ _ _) as [w3 r]. cbn in R1, R2. subst r. cbn. auto.
  - destruct SU as [L DC]. destruct (sh_attr w v S a) as (_ & AN & _); [rewrite NX; exact L|]. rewrite <- NX in L.
    unfold set_attribute_node, map_set. destruct (sh_elem w v S e) as (ED & _ & ER). rewrite ER.
    destruct (v_owner v a) as [o|] eqn:O.
    + assert (I := O). apply (sh_owner w v S a o L) in I. destruct (proj2 (sh_tidy w v S o) a I) as (_ & OW & OR & _).
      unfold is_orphaned. rewrite OW, OR. cbn [negb andb]. destruct (Nat.eqb o e); [auto|]. cbn [negb andb]. destruct (v_closed v e); auto.
    + rewrite (sh_free w v S a L O). cbn [negb andb]. destruct (v_closed v e) eqn:CL; [auto|].
      rewrite AN. apply shows_attach; auto.
  - unfold remove_attribute. destruct (shows_get w v e n S) as [S0 _]. assert (G := get_next w e (name_is n)).
    destruct (get_by w e (name_is n)) as [w0 x0]. cbn [fst] in S0, G. destruct G as [G1 G2]. rewrite drop_fst.
    destruct (v_closed v e) eqn:CL.
    + unfold remove_by. destruct (sh_elem w0 v S0 e) as (_ & _ & ->). rewrite CL. auto.
    + destruct (v_at v e n) as [a|] eqn:AT.
      * destruct (shows_drop w0 v e n a S0 CL AT) as [R1 R2]. destruct (remove_by _ _ _ _) as [w1 r]. cbn in R1, R2. subst r. auto.
      * unfold remove_by. destruct (sh_elem w0 v S0 e) as (_ & _ & ->). rewrite CL, (shows_find w0 v e n S0), AT. auto.
  - destruct SU as [L O]. rewrite <- NX in L. unfold remove_attribute_node. destruct (sh_attr w v S a L) as (_ & AN & _).
    assert (I := O). apply (sh_owner w v S a e L) in I. destruct (proj2 (sh_tidy w v S e) a I) as (_ & OW & OR & _).
    rewrite OW, Nat.eqb_refl, AN.
    assert (AT : v_at v e (v_name v a) = Some a) by (apply (sh_at w v S); auto).
    destruct (v_closed v e) eqn:CL.
    + unfold remove_by. destruct (sh_elem w v S e) as (_ & _ & ->). rewrite CL. auto.
    + destruct (shows_drop w v e _ a S CL AT) as [R1 R2]. destruct (remove_by _ _ _ _) as [w1 r]. cbn in R1, R2. subst r. auto.
  - split; [|reflexivity]. cbn [fst]. assert (T := tidy_call w (AFreeze e) (sh_tidy w v S) (Forall_nil _)). cbn [attr_call fst] in T.
    assert (Q : forall b, let x := w_attr (freeze_elem w e) b in let y := w_attr w b in
      a_doc x = a_doc y /\ a_name x = a_name y /\ a_texts x = a_texts y /\ a_cache x = a_cache y /\ a_owner x = a_owner y /\ a_orphan x = a_orphan y).
    { intro b. cbn. destruct (existsb _ _); auto 7. }
    assert (LE : forall x, e_attrs (w_elem (freeze_elem w e) x) = e_attrs (w_elem w x)) by (intro x; cbn; destruct (Nat.eqb x e); reflexivity).
    constructor.
    + exact T.
    + exact NX.
    + intro x. cbn. destruct (sh_elem w v S x) as (X1 & X2 & X3). destruct (Nat.eqb x e); auto.
    + intros b LB. destruct (Q b) as (-> & -> & TE & CE & _). unfold node_value. rewrite TE, CE.
      cbn [w_next freeze_elem] in LB. destruct (sh_attr w v S b LB) as (X1 & X2 & X3 & X4 & X5).
      repeat (split; [assumption|]). split; [|auto]. cbn [freeze_elem w_attr close v_fixed].
      destruct (existsb (Nat.eqb b) (e_attrs (w_elem w e))) eqn:EX.
      * apply existsb_exists in EX. destruct EX as (y & IY & EY). apply Nat.eqb_eq in EY. subst y.
        apply (sh_owner w v S b e LB) in IY. rewrite IY, Nat.eqb_refl. reflexivity.
      * rewrite X3. destruct (v_owner v b) as [o|] eqn:OB; [|reflexivity]. destruct (Nat.eqb_spec o e) as [->|]; [|reflexivity].
        exfalso. apply (sh_owner w v S b e LB) in OB. rewrite <- not_true_iff_false in EX. apply EX. apply existsb_exists.
        exists b. split; [exact OB|apply Nat.eqb_refl].
    + intros b x LB. rewrite LE. apply (sh_owner w v S b x LB).
    + intros b LB OB. unfold is_orphaned. destruct (Q b) as (_ & _ & _ & _ & -> & ->). apply (sh_free w v S b LB OB).
    + intro x. rewrite LE. unfold names_in. erewrite map_ext; [apply (sh_names w v S x)|]. intro b. apply Q.
    + intros x m b. rewrite LE. destruct (Q b) as (_ & -> & _). apply (sh_at w v S).
  - rewrite <- NX in SU. destruct (shows_read w v a S SU) as [A B]. unfold read_value in *. cbn [fst snd] in *. rewrite B. auto.
  - rewrite <- NX in SU. unfold set_value. destruct (sh_attr w v S a SU) as (_ & _ & -> & _). destruct (v_fixed v a); [auto|].
    split; [|reflexivity]. cbn [fst]. apply shows_put; auto; cbn; [apply app_nil_r|]. unfold node_value. cbn. apply app_nil_r.
  - rewrite <- NX in SU. unfold append_text. destruct (sh_attr w v S a SU) as (_ & _ & -> & E1 & E2).
    assert (S1 : shows (put_attr w a (set_cache None)) v) by (apply shows_put_same; auto).
    destruct (v_fixed v a); [auto|]. split; [|reflexivity]. cbn [fst].
    apply shows_put; auto; unfold node_value; cbn; rewrite Nat.eqb_refl; cbn; rewrite concat_app, E1; cbn; rewrite app_nil_r; reflexivity.
Qed.
Lemma shows_calls : forall cs w v, shows w v -> history docs dflt v cs ->
  shows (fst (attr_calls w cs)) (fst (calls_spec docs dflt v cs)) /\ snd (attr_calls w cs) = snd (calls_spec docs dflt v cs).
Proof.
  induction cs as [|c cs IH]; intros w v S H; cbn [attr_calls calls_spec]; [auto|].
  cbn [history] in H. destruct H as [SU H]. destruct (shows_call w v c S SU) as [A B].
  destruct (attr_call w c) as [w1 x1], (call_spec docs dflt v c) as [v1 y1]. cbn [fst snd] in *. subst y1.
  destruct (IH w1 v1 A H) as [C D]. destruct (attr_calls w1 cs), (calls_spec docs dflt v1 cs). cbn [fst snd] in *. subst. auto.
Qed.
Lemma shows_first : shows (first_world docs dflt) first_view.
Proof.
  constructor; cbn; try (intros; lia); auto.
  - intro e. cbn. split; [constructor|intros a []].
  - intro e. constructor.
  - intros e n a. split; [discriminate|intros [[] _]].
Qed.
End Level1.

(** * Setting and then reading, in any state *)
Lemma find_replaced : forall (q : nat -> bool) n l, (exists x, In x l /\ q x = true) -> forall q', q' n = true -> (forall x, In x l -> q' x = q x) ->
  find q' (replace_first q n l) = Some n.
Proof.
  induction l as [|y l IH]; intros (x & I & Q) q' QN E; [destruct I|]. cbn. destruct (q y) eqn:QY; cbn; [rewrite QN; reflexivity|].
  rewrite (E y) by (left; reflexivity). rewrite QY. apply IH; [|exact QN|intros; apply E; right; assumption].
  destruct I as [->|I]; [congruence|eauto].
Qed.
Lemma find_appended : forall (q : nat -> bool) n l, (forall x, In x l -> q x = false) -> q n = true -> find q (l ++ [n]) = Some n.
Proof.
  induction l as [|y l IH]; intros N Q; cbn; [rewrite Q; reflexivity|]. rewrite (N y) by (left; reflexivity). apply IH; auto.
  intros; apply N; right; assumption.
Qed.
Lemma find_other : forall (q r : nat -> bool) n o l, find q l = Some o -> r o = false -> r n = false -> find r (replace_first q n l) = find r l.
Proof.
  intros q r n o l F RO RN. apply first_split in F. destruct F as (l1 & l2 & -> & _ & _ & _ & RP). rewrite RP.
  clear RP. induction l1 as [|y l1 IH]; cbn; [rewrite RN, RO; reflexivity|]. rewrite IH. reflexivity.
Qed.
Lemma find_app_other : forall (r : nat -> bool) n l, r n = false -> find r (l ++ [n]) = find r l.
Proof. induction l as [|y l IH]; intro R; cbn; [rewrite R; reflexivity|]. rewrite IH by exact R. reflexivity. Qed.
Lemma find_cong : forall (q r : nat -> bool) l, (forall x, In x l -> q x = r x) -> find q l = find r l.
Proof.
  induction l as [|y l IH]; intro H; [reflexivity|]. cbn. rewrite (H y) by (left; reflexivity).
  rewrite IH; [reflexivity|]. intros; apply H; right; assumption.
Qed.
(** What a successful base_set of a new attribute leaves to be read. *)
Lemma base_reads : forall w e a p w' r, tidy w -> unlisted w a ->
  base_set (set_owner_element w a e) e a p = (w', r) -> (forall x, r <> RThrow x) ->
  (forall x y, a_name x = a_name y -> a_uri x = a_uri y -> a_local x = a_local y -> p x = p y) -> p (w_attr w a) = true ->
  find_attr w' p (e_attrs (w_elem w' e)) = Some a /\
  (forall x, node_value (w_attr w' x) = node_value (w_attr w x)) /\
  (forall q : attr -> bool, (forall x y, a_name x = a_name y -> a_uri x = a_uri y -> a_local x = a_local y -> q x = q y) ->
     forall e', (e' = e -> forall x, p x = true -> q x = false) ->
     find_attr w' q (e_attrs (w_elem w' e')) = find_attr w q (e_attrs (w_elem w e'))).
Proof.
  intros w e a p w' r T U E NR PE PA. unfold base_set in E. cbv zeta in E. set (w1 := set_owner_element w a e) in *.
  assert (SAME : forall (q : attr -> bool) b, (forall x y, a_name x = a_name y -> a_uri x = a_uri y -> a_local x = a_local y -> q x = q y) ->
    q (w_attr w1 b) = q (w_attr w b)) by (intros q b H; apply H; unfold w1; cbn; destruct (Nat.eqb b a); reflexivity).
  assert (EL : w_elem w1 = w_elem w) by reflexivity.
  destruct (e_ro (w_elem w1 e)); [injection E as <- <-; exfalso; eapply NR; reflexivity|].
  destruct (negb _); [injection E as <- <-; exfalso; eapply NR; reflexivity|].
  rewrite EL in E.
  assert (FW : find_attr w1 p (e_attrs (w_elem w e)) = find_attr w p (e_attrs (w_elem w e))).
  { apply find_attr_ext. intros b _. apply SAME, PE. }
  destruct (find_attr w1 p (e_attrs (w_elem w e))) as [old|] eqn:F; injection E as <- <-.
  - assert (ATTR : forall (q : attr -> bool) b, (forall x y, a_name x = a_name y -> a_uri x = a_uri y -> a_local x = a_local y -> q x = q y) ->
      q (w_attr (put_attr (put_list (put_attr w1 a (set_orphan false)) e (replace_first (fun x => p (w_attr w1 x)) a (e_attrs (w_elem w e)))) old (set_orphan true)) b) = q (w_attr w b)).
    { intros q b H. rewrite <- SAME by exact H. apply H; cbn [put_attr put_list w_attr]; destruct (Nat.eqb b old), (Nat.eqb b a); reflexivity. }
    assert (F2 := F). apply find_some in F2. destruct F2 as [IO PO].
    split; [|split].
    + cbn [put_attr put_list w_elem]. rewrite EL, Nat.eqb_refl. cbn [e_attrs]. unfold find_attr.
      rewrite (find_cong _ (fun b => p (w_attr w b))) by (intros; apply ATTR, PE).
      apply find_replaced; [eauto|exact PA|]. intros x _. symmetry. apply SAME, PE.
    + intro x. cbn [put_attr put_list w_attr w1 set_owner_element]. destruct (Nat.eqb x old), (Nat.eqb x a); reflexivity.
    + intros q QE e' NE. unfold find_attr. rewrite (find_cong _ (fun b => q (w_attr w b))) by (intros; apply ATTR, QE).
      cbn [put_attr put_list w_elem]. rewrite EL. destruct (Nat.eqb_spec e' e) as [->|]; [|reflexivity]. cbn [e_attrs].
      apply find_other with old; [exact F| |]; apply NE; auto. rewrite <- SAME by exact PE. exact PO.
  - assert (ATTR : forall (q : attr -> bool) b, (forall x y, a_name x = a_name y -> a_uri x = a_uri y -> a_local x = a_local y -> q x = q y) ->
      q (w_attr (put_list (put_attr w1 a (set_orphan false)) e (e_attrs (w_elem w e) ++ [a])) b) = q (w_attr w b)).
    { intros q b H. rewrite <- SAME by exact H. apply H; cbn [put_attr put_list w_attr]; destruct (Nat.eqb b a); reflexivity. }
    split; [|split].
    + cbn [put_attr put_list w_elem]. rewrite EL, Nat.eqb_refl. cbn [e_attrs]. unfold find_attr.
      rewrite (find_cong _ (fun b => p (w_attr w b))) by (intros; apply ATTR, PE).
      apply find_appended; [|exact PA]. apply find_attr_none. symmetry. exact FW.
    + intro x. cbn [put_attr put_list w_attr w1 set_owner_element]. destruct (Nat.eqb x a); reflexivity.
    + intros q QE e' NE. unfold find_attr. rewrite (find_cong _ (fun b => q (w_attr w b))) by (intros; apply ATTR, QE).
      cbn [put_attr put_list w_elem]. rewrite EL. destruct (Nat.eqb_spec e' e) as [->|]; [|reflexivity]. cbn [e_attrs].
      apply find_app_other. apply NE; auto.
Qed.
Lemma name_is_cong : forall n x y, a_name x = a_name y -> a_uri x = a_uri y -> a_local x = a_local y -> name_is n x = name_is n y.
Proof. intros n x y E _ _. unfold name_is. rewrite E. reflexivity. Qed.
Lemma ns_name_is_cong : forall u l x y, a_name x = a_name y -> a_uri x = a_uri y -> a_local x = a_local y -> ns_name_is u l x = ns_name_is u l y.
Proof. intros u l x y E1 E2 E3. unfold ns_name_is, uri_of. rewrite E1, E2, E3. reflexivity. Qed.
(** What getAttribute says, as a function of the state. *)
Definition says (w : world) (e : nat) (p : attr -> bool) : str := snd (get_by w e p).
Lemma says_eq : forall w e p, says w e p = match find_attr w p (e_attrs (w_elem w e)) with Some a => node_value (w_attr w a) | None => [] end.
Proof. intros w e p. unfold says, get_by. destruct (find_attr _ _ _); reflexivity. Qed.
Lemma get_keeps : forall w e p, (forall e' (q : attr -> bool), (forall x y, a_name x = a_name y -> a_uri x = a_uri y -> a_local x = a_local y -> q x = q y) ->
    find_attr (fst (get_by w e p)) q (e_attrs (w_elem (fst (get_by w e p)) e')) = find_attr w q (e_attrs (w_elem w e'))) /\
  (forall b, node_value (w_attr (fst (get_by w e p)) b) = node_value (w_attr w b)).
Proof.
  intros w e p. unfold get_by. destruct (find_attr w p _) as [a|]; [|auto]. cbn [read_value fst]. split.
  - intros e' q Q. apply find_attr_ext. intros b _. apply Q; cbn; destruct (Nat.eqb b a); reflexivity.
  - intro b. cbn. destruct (Nat.eqb_spec b a) as [->|]; reflexivity.
Qed.
Lemma set_then_get : forall w e n v w', tidy w -> set_attribute w e n v = (w', RNone) ->
  says w' e (name_is n) = v /\
  forall e' n', e' <> e \/ n' <> n -> says w' e' (name_is n') = says w e' (name_is n').
Proof.
  intros w e n v w' T E. unfold set_attribute in E. destruct (check_name n); [|discriminate].
  assert (G := get_keeps w e (name_is n)). assert (T0 := tidy_get w e (name_is n) T).
  destruct (get_by w e (name_is n)) as [w0 s0]. cbn [fst] in G, T0. destruct G as [G1 G2].
  cbn [new_attr] in E. set (x := level1 _ _ _ _) in E. assert (T1 := tidy_new w0 x T0). cbn [new_attr fst] in T1.
  set (w1 := World _ _ _) in *. set (a := w_next w0) in *.
  assert (U : unlisted w1 a) by exact (fresh_unlisted w0 T0).
  destruct (base_set (set_owner_element w1 a e) e a (name_is n)) as [w2 r] eqn:B.
  assert (NR : forall y, r <> RThrow y) by (intros y ->; discriminate).
  assert (w2 = w') as -> by (destruct r; congruence).
  assert (WA : w_attr w1 a = x) by (unfold w1; cbn; rewrite Nat.eqb_refl; reflexivity).
  destruct (base_reads w1 e a (name_is n) w' r T1 U B NR (name_is_cong n)) as (F1 & F2 & F3).
  { rewrite WA. apply str_eqb_true. reflexivity. }
  split.
  - rewrite says_eq, F1, F2, WA. unfold node_value. cbn. apply app_nil_r.
  - intros e' n' NE. rewrite !says_eq. rewrite F3; [|apply name_is_cong|].
    + assert (FE : find_attr w1 (name_is n') (e_attrs (w_elem w1 e')) = find_attr w (name_is n') (e_attrs (w_elem w e'))).
      { rewrite <- G1 by apply name_is_cong. apply find_attr_ext. intros b I. unfold w1. cbn.
        destruct (Nat.eqb_spec b a) as [->|]; [exfalso; apply (fresh_unlisted w0 T0 e' I)|reflexivity]. }
      rewrite FE. destruct (find_attr w (name_is n') _) as [b|] eqn:FB; [|reflexivity]. rewrite F2, <- G2. unfold w1. cbn.
      destruct (Nat.eqb_spec b a) as [->|]; [|reflexivity]. exfalso.
      rewrite <- G1 in FB by apply name_is_cong. apply find_some in FB. apply (fresh_unlisted w0 T0 e'), FB.
    + intros -> y P. destruct NE as [NE|NE]; [contradiction|]. unfold name_is in *. apply str_eqb_true in P. apply str_eqb_false. congruence.
Qed.
Lemma ns_self : forall x, ns_name_is (uri_of x) (a_local x) x = true.
Proof.
  intro x. unfold ns_name_is. apply orb_true_iff. right. apply andb_true_iff. split; apply str_eqb_true; reflexivity.
Qed.
Lemma set_ns_then_get : forall w e u q v w' x, tidy w -> set_attribute_ns w e u q v = (w', RNone) ->
  ns_attr (e_doc (w_elem w e)) u q false = inl x -> says w' e (ns_name_is (uri_of x) (a_local x)) = v.
Proof.
  intros w e u q v w' x T E NS. unfold set_attribute_ns in E. destruct (check_name q); [|discriminate]. rewrite NS in E.
  cbn [new_attr] in E. assert (T1 := tidy_new w (set_texts [v] x) T). cbn [new_attr fst] in T1.
  set (w1 := World _ _ _) in *. set (a := w_next w) in *.
  assert (U : unlisted w1 a) by exact (fresh_unlisted w T).
  destruct (base_set (set_owner_element w1 a e) e a _) as [w2 r] eqn:B.
  assert (NR : forall y, r <> RThrow y) by (intros y ->; discriminate).
  assert (w2 = w') as -> by (destruct r; congruence).
  assert (WA : w_attr w1 a = set_texts [v] x) by (unfold w1; cbn; rewrite Nat.eqb_refl; reflexivity).
  destruct (base_reads w1 e a _ w' r T1 U B NR (ns_name_is_cong _ _)) as (F1 & F2 & F3).
  { rewrite WA. exact (ns_self x). }
  rewrite says_eq, F1, F2, WA. unfold node_value. cbn.
  assert (CN : a_cache x = None).
  { unfold ns_attr in NS. destruct (at_colon q) as [[p l]|]; destruct (check_prefix _ u); try discriminate; injection NS as <-; reflexivity. }
  rewrite CN. apply app_nil_r.
Qed.
(** When setAttribute succeeds. *)
Lemma set_reply : forall w e n v, tidy w ->
  snd (set_attribute w e n v) = if name_ok n then if e_ro (w_elem w e) then RThrow A_NO_MODIFICATION else RNone else RThrow A_INVALID_CHARACTER.
Proof.
  intros w e n v T. unfold set_attribute. rewrite name_ok_check. destruct (name_ok n); [|reflexivity].
  assert (G := get_next w e (name_is n)). destruct (get_by w e (name_is n)) as [w0 s0]. cbn [fst] in G. destruct G as [_ G2].
  cbn [new_attr]. unfold base_set. set (w1 := set_owner_element _ _ _).
  assert (W1 : w_elem w1 = w_elem w) by exact G2. rewrite W1. destruct (e_ro (w_elem w e)); [reflexivity|].
  assert (W2 : a_doc (w_attr w1 (w_next w0)) = e_doc (w_elem w e)) by (cbn; rewrite !Nat.eqb_refl; reflexivity).
  rewrite W2, Nat.eqb_refl. cbn [negb]. clearbody w1. destruct (find_attr _ _ _); reflexivity.
Qed.

(** * Level 2: namespaces *)
Definition proper (x : attr) : Prop := (a_uri x = None -> a_local x <> []) /\ a_uri x <> Some [].
Definition key (x : attr) : option str * str := (a_uri x, a_local x).
Lemma ns_attr_proper : forall d u q o x, q <> [] -> ns_attr d u q o = inl x -> proper x /\ a_owner x = None.
Proof.
  intros d u q o x Q E. unfold ns_attr in E.
  assert (CP : forall p c, check_prefix p u = inl c -> (c = None -> p = None) /\ c <> Some []).
  { intros p c C. unfold check_prefix in C. destruct p as [p|].
    - destruct (has_colon p); [discriminate|]. destruct (str_eqb p xml_prefix).
      + destruct (str_eqb u xml_ns) eqn:X; [|discriminate]. apply str_eqb_true in X. subst u. injection C as <-. split; discriminate.
      + destruct (str_eqb p xmlns_prefix); [destruct (_ || _); [injection C as <-; split; discriminate|discriminate]|].
        destruct (is_empty u) eqn:EU; [discriminate|]. injection C as <-. split; [discriminate|]. intro X. injection X as ->. discriminate.
    - injection C as <-. split; [auto|]. destruct u; discriminate. }
  destruct (at_colon q) as [[p l]|] eqn:AC.
  - destruct (check_prefix (Some p) u) as [c|] eqn:C; [|discriminate]. injection E as <-. apply CP in C. destruct C as [C1 C2].
    split; [|reflexivity]. split; cbn; [intro X; specialize (C1 X); discriminate|exact C2].
  - destruct (check_prefix _ u) as [c|] eqn:C; [|discriminate]. injection E as <-. apply CP in C. destruct C as [C1 C2].
    split; [|reflexivity]. split; cbn; [intros _; exact Q|exact C2].
Qed.
Lemma ns_is_key : forall x y, proper x -> proper y -> ns_name_is (uri_of x) (a_local x) y = true <-> key y = key x.
Proof.
  intros x y [PX1 PX2] [PY1 PY2]. unfold ns_name_is, key, uri_of. split.
  - intro E. apply orb_true_iff in E. destruct E as [E|E].
    + apply andb_true_iff in E. destruct E as [E E3]. apply andb_true_iff in E. destruct E as [E1 E2].
      destruct (a_uri y); [discriminate|]. assert (a_uri x = None) as X by (destruct (a_uri x) as [[|]|]; [congruence|discriminate|reflexivity]).
      rewrite X. apply orb_true_iff in E3. destruct E3 as [E3|E3].
      * apply str_eqb_true in E3. rewrite E3. reflexivity.
      * apply andb_true_iff in E3. destruct E3 as [E3 _]. exfalso. apply (PY1 eq_refl). destruct (a_local y); [reflexivity|discriminate].
    + apply andb_true_iff in E. destruct E as [E1 E2]. apply str_eqb_true in E1. apply str_eqb_true in E2. rewrite E2. f_equal.
      destruct (a_uri x) as [[|]|], (a_uri y) as [[|]|]; congruence.
  - intro E. injection E as -> ->. apply orb_true_iff. right. apply andb_true_iff. split; apply str_eqb_true; reflexivity.
Qed.
Definition named2 (w : world) : Prop :=
  (forall a, (a < w_next w)%nat -> proper (w_attr w a)) /\ (forall e, NoDup (map (fun a => key (w_attr w a)) (e_attrs (w_elem w e)))).
Lemma named2_put : forall w a f, named2 w -> (forall x, key (f x) = key x) -> named2 (put_attr w a f).
Proof.
  intros w a f [P D] F. split.
  - intros b L. cbn in *. specialize (P b L). destruct (Nat.eqb b a); [|exact P]. assert (K := F (w_attr w b)). unfold key in K.
    injection K as K1 K2. unfold proper. rewrite K1, K2. exact P.
  - intro e. cbn. erewrite map_ext; [apply (D e)|]. intro b. cbn. destruct (Nat.eqb b a); auto.
Qed.
Lemma named2_new : forall w x, tidy w -> named2 w -> proper x -> named2 (fst (new_attr w x)).
Proof.
  intros w x T [P D] PX. split.
  - intros b L. cbn in *. destruct (Nat.eqb_spec b (w_next w)); [exact PX|]. apply P. lia.
  - intro e. cbn. erewrite map_ext_in; [apply (D e)|]. intros b I. cbn. destruct (Nat.eqb_spec b (w_next w)) as [->|]; [|reflexivity].
    exfalso. apply (fresh_unlisted w T e I).
Qed.
Lemma named2_base : forall w e a, tidy w -> named2 w -> (a < w_next w)%nat -> unlisted w a ->
  named2 (fst (base_set (set_owner_element w a e) e a (ns_name_is (uri_of (w_attr w a)) (a_local (w_attr w a))))).
Proof.
  intros w e a T N L U. set (p := ns_name_is _ _).
  assert (N1 : named2 (set_owner_element w a e)) by (apply named2_put; auto).
  unfold base_set. set (w1 := set_owner_element w a e) in *.
  assert (T1 : tidy w1) by (apply tidy_put_unlisted; assumption).
  assert (PC : forall x y, key x = key y -> proper x -> proper y -> p x = p y).
  { intros x y K X Y. apply eq_true_iff_eq. unfold p. rewrite !ns_is_key; auto; [rewrite K; tauto| |]; apply N, L. }
  assert (KA : key (w_attr w1 a) = key (w_attr w a)) by (cbn; rewrite Nat.eqb_refl; reflexivity).
  destruct (e_ro _); [exact N1|]. destruct (negb _); [exact N1|].
  assert (PK : forall b, In b (e_attrs (w_elem w1 e)) -> (p (w_attr w1 b) = true <-> key (w_attr w1 b) = key (w_attr w1 a))).
  { intros b I. rewrite KA. unfold p. apply ns_is_key; [apply N, L|]. apply N1. apply (T1 e), I. }
  assert (L1 : (a < w_next w1)%nat) by exact L. clearbody p w1.
  destruct (find_attr w1 p (e_attrs (w_elem w1 e))) as [old|] eqn:F; cbn [fst].
  - apply named2_put; [|reflexivity]. split.
    + intros b LB. cbn in *. assert (X := proj1 N1 b LB). destruct (Nat.eqb b a); exact X.
    + intro e'. cbn. erewrite map_ext; [|intro b; instantiate (1 := fun b => key (w_attr w1 b)); cbn; destruct (Nat.eqb b a); reflexivity].
      destruct (Nat.eqb_spec e' e) as [->|]; [|apply N1]. cbn [e_attrs].
      assert (IO := F). apply find_some in IO. destruct IO as [IO PO]. apply (PK old IO) in PO.
      apply first_split in F. destruct F as (l1 & l2 & EL & _ & _ & _ & RP). cbv beta in RP. rewrite RP.
      assert (D := proj2 N1 e). rewrite EL in D. rewrite map_app in *. cbn [map] in *. rewrite PO in D. exact D.
  - split.
    + intros b LB. cbn in *. assert (X := proj1 N1 b LB). destruct (Nat.eqb b a); exact X.
    + intro e'. cbn. erewrite map_ext; [|intro b; instantiate (1 := fun b => key (w_attr w1 b)); cbn; destruct (Nat.eqb b a); reflexivity].
      destruct (Nat.eqb_spec e' e) as [->|]; [|apply N1]. cbn [e_attrs]. rewrite map_app. cbn [map].
      apply NoDup_Add with (a := key (w_attr w1 a)) (l := map (fun b => key (w_attr w1 b)) (e_attrs (w_elem w1 e))).
      * rewrite <- (app_nil_r (map _ _)) at 1. apply Add_app.
      * split; [apply N1|]. intro I. apply in_map_iff in I. destruct I as (b & K & IB). apply PK in K; [|exact IB].
        rewrite (find_attr_none _ _ _ F b IB) in K. discriminate.
Qed.
Lemma check_name_nonempty : forall q, check_name q = true -> q <> [].
Proof. intros [|]; [discriminate|]. intros _ X. discriminate. Qed.
Lemma reach2_named : forall w, reach2 w -> tidy w /\ named2 w /\ forall e, e_defaults (w_elem w e) = [].
Proof.
  induction 1 as [docs|w c R (T & N & DF) LV P].
  - split; [|split; [|reflexivity]].
    + intro e. cbn. split; [constructor|intros a []].
    + split; [cbn; intros; lia|]. intro e. constructor.
  - split; [apply tidy_call; assumption|].
    assert (KEEP : forall w', named2 w' -> (forall e, e_defaults (w_elem w' e) = e_defaults (w_elem w e)) -> named2 w' /\ forall e, e_defaults (w_elem w' e) = []).
    { intros w' N' D'. split; [exact N'|]. intro e. rewrite D'. apply DF. }
    assert (MS : forall e a, (a < w_next w)%nat -> named2 (fst (set_attribute_node_ns w e a)) /\ forall x, e_defaults (w_elem (fst (set_attribute_node_ns w e a)) x) = e_defaults (w_elem w x)).
    { intros e a L. unfold set_attribute_node_ns, map_set. set (mine := match a_owner _ with Some _ => _ | None => _ end). clearbody mine.
      destruct (is_orphaned (w_attr w a)) eqn:O; cbn [negb andb].
      - destruct (e_ro _); [auto|]. split; [apply named2_base; auto; apply orphan_unlisted; auto|].
        intro x. exact (proj2 (proj2 (base_next (set_owner_element w a e) e a (ns_name_is (uri_of (w_attr w a)) (a_local (w_attr w a)))) x)).
      - destruct mine; cbn [negb]; [auto|]. destruct (e_ro _); auto. }
    destruct c as [d n|d u q|e n|e u l|e n|e u l|e n|e u l|e n s|e u q s|e a|e a|e n|e u l|e a|e|e|a|a s|a s|a k s|a p]; try discriminate LV; cbn [attr_call].
    + apply KEEP; unfold create_attribute_ns; destruct (check_name q) eqn:CN; auto; destruct (ns_attr d u q true) as [x|] eqn:NA; auto.
      cbn [new_attr fst]. apply (named2_new w); auto. apply (ns_attr_proper d u q true x); auto. apply check_name_nonempty, CN.
    + unfold get_by. destruct (find_attr _ _ _) as [a|]; cbn [read_value fst]; apply KEEP; auto. apply named2_put; auto.
    + apply KEEP; auto.
    + apply KEEP; auto.
    + unfold set_attribute_ns. destruct (check_name q) eqn:CN; [|apply KEEP; auto].
      destruct (ns_attr _ u q false) as [x|] eqn:NA; [|apply KEEP; auto].
      assert (PX := ns_attr_proper _ u q false x (check_name_nonempty q CN) NA). destruct PX as [PX _].
      cbn [new_attr]. assert (N1 := named2_new w (set_texts [s] x) T N PX). assert (T1 := tidy_new w (set_texts [s] x) T).
      cbn [new_attr fst] in N1, T1. set (w1 := World _ _ _) in *. set (a := w_next w) in *.
      assert (WA : w_attr w1 a = set_texts [s] x) by (unfold w1; cbn; rewrite Nat.eqb_refl; reflexivity).
      assert (B := named2_base w1 e a T1 N1). rewrite WA in B. cbn [set_texts uri_of a_uri a_local] in B.
      assert (D := base_next (set_owner_element w1 a e) e a (ns_name_is (uri_of x) (a_local x))).
      change (match a_uri x with Some u0 => u0 | None => [] end) with (uri_of x) in B.
      destruct (base_set (set_owner_element w1 a e) e a _) as [w2 r]. cbn [fst] in B, D.
      assert (N2 : named2 w2) by (apply B; [unfold w1, a; cbn; lia|exact (fresh_unlisted w T)]).
      destruct r; cbn [fst]; apply KEEP; auto; intro x0; exact (proj2 (proj2 D x0)).
    + inversion P; subst. apply KEEP; apply MS; assumption.
    + unfold remove_attribute_ns. rewrite drop_fst. unfold remove_by. destruct (e_ro _); [apply KEEP; auto|].
      destruct (find_attr w _ (e_attrs (w_elem w e))) as [old|] eqn:F; [|apply KEEP; auto]. cbn [fst].
      set (w1 := put_attr _ _ _). assert (D0 : e_defaults (w_elem w1 e) = []) by (cbn; destruct (Nat.eqb_spec e e); [apply DF|congruence]).
      unfold create_default. rewrite D0. cbn [find]. unfold w1.
      apply KEEP; [|intro x; cbn; destruct (Nat.eqb x e); reflexivity].
      apply named2_put; [|reflexivity]. split; [apply N|]. intro e'. cbn. destruct (Nat.eqb_spec e' e) as [->|]; [|apply N]. cbn [e_attrs].
      apply first_split in F. destruct F as (l1 & l2 & EL & _ & _ & ER & _). cbv beta in ER. rewrite ER.
      assert (D := proj2 N e). rewrite EL in D. rewrite map_app in *. cbn [map] in D. apply NoDup_remove in D. apply D.
    + cbn [fst]. apply KEEP; [|intro x; cbn; destruct (Nat.eqb x e); reflexivity]. split.
      * intros b L. cbn in *. assert (X := proj1 N b L). destruct (existsb _ _); exact X.
      * intro e'. cbn. erewrite map_ext; [|intro b; instantiate (1 := fun b => key (w_attr w b)); cbn; destruct (existsb _ _); reflexivity].
        destruct (Nat.eqb_spec e' e); apply N.
    + cbn [read_value fst]. apply KEEP; auto. apply named2_put; auto.
    + unfold set_value. destruct (a_ro _); cbn [fst]; apply KEEP; auto. apply named2_put; auto.
    + unfold append_text. assert (N1 : named2 (put_attr w a (set_cache None))) by (apply named2_put; auto).
      destruct (a_ro _); cbn [fst]; apply KEEP; auto. apply named2_put; auto.
    + unfold edit_text. destruct (a_ro _); cbn [fst]; apply KEEP; auto. apply named2_put; auto.
    + unfold set_prefix. destruct (a_uri _) as [u|]; [|destruct (is_empty _); apply KEEP; auto].
      destruct (is_empty p); [apply KEEP; auto; apply named2_put; auto|]. destruct (check_prefix (Some p) u); apply KEEP; auto. apply named2_put; auto.
Qed.
