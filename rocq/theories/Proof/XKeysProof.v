From Coq Require Import Sorted.
From Verif.Model Require Import Base XNode XAxis XNodeSet Template XKeys.
From Verif.Spec Require Import XOrder XAxisSpec XNodeSetSpec XKeysSpec.
From Verif.Proof Require Import XOrderProof XAxisProof XAxisWalks XAxisSimple XNodeSetProof XStepProof TemplateProof.

(** * Order *)
Lemma before_suffix : forall {A} (l0 l : list A), StronglySorted (before (l0 ++ l)) l.
Proof.
  intros A l0 l. revert l0. induction l as [|x l IH]; intros l0; [constructor|]. constructor.
  - replace (l0 ++ x :: l) with ((l0 ++ [x]) ++ l) by (rewrite <- app_assoc; reflexivity). apply IH.
  - apply Forall_forall. intros y Y. apply in_split in Y. destruct Y as (l1 & l2 & ->). exists l0, l1, l2. reflexivity.
Qed.
Lemma picks_sorted : forall {A} (R : A -> A -> Prop) P l m, StronglySorted R l -> picks P l m -> StronglySorted R m.
Proof.
  intros A R P l m SO K. induction K as [|x l m PX K IH|x l m PX K IH]; [constructor| |]; inversion SO as [|? ? S1 F1]; subst.
  - constructor; [apply IH; exact S1|]. rewrite Forall_forall in *. intros y Y. apply F1. apply (picks_incl _ _ _ K) in Y. tauto.
  - apply IH. exact S1.
Qed.
Lemma filter_sorted : forall {A} (R : A -> A -> Prop) b l, StronglySorted R l -> StronglySorted R (filter b l).
Proof.
  intros A R b l SO. induction SO as [|x l SO IH F]; [constructor|]. cbn. destruct (b x); [|exact IH]. constructor; [exact IH|]. rewrite Forall_forall in *. intros y Y. apply filter_In in Y. apply F. tauto.
Qed.
Definition walked (f : forest) (d : nat) (l : list path) : Prop :=
  enumerate (tree_size (f_tree f d)) (f_tree f d) 0 DescendantOrSelf [] = Nodes l /\
  (forall x, In x l <-> In x (nodes (f_tree f d)) /\ ~ is_attribute x) /\ StronglySorted (precedes f) (map (pair d) l).
Lemma walk_document : forall f d, key_document f d -> exists l, walked f d l.
Proof.
  intros f d (D & SH & K & SM). set (t := f_tree f d) in *.
  assert (R : In [] (nodes t)) by (unfold nodes; apply filter_In; split; [destruct t; left; reflexivity|]; unfold continues, is_text; cbn; unfold tree_is_text; rewrite K; reflexivity).
  destruct (axis_lemma t [] DescendantOrSelf (tree_size t) 0%nat SH) as (l & E & A).
  - rewrite K. discriminate.
  - exact R.
  - split; [discriminate|]. split; [discriminate|]. split; discriminate.
  - rewrite size_eq. apply le_n.
  - exists l. split; [exact E|]. unfold axis_list in A. cbn in A. split.
    + intros x. rewrite (picks_incl _ _ _ A x). split.
      * intros (I & [(N & _)| ->]); [tauto|]. split; [exact I|]. intros (i & q & E1). discriminate.
      * intros (I & N). split; [exact I|]. destruct x as [|s x]; [right; reflexivity|]. left. split; [exact N|]. exists (s :: x). split; [discriminate|symmetry; apply app_nil_r].
    + assert (SO : StronglySorted (before (order t [])) l) by (refine (picks_sorted _ _ _ _ _ A); apply filter_sorted; exact (before_suffix [] _)).
      clear - SO. induction SO as [|x l SO IH F]; [constructor|]. cbn [map]. constructor; [exact IH|]. apply Forall_map. revert F. apply Forall_impl. intros y Y. unfold precedes. cbn. rewrite Nat.eqb_refl. exact Y.
Qed.

(** * The index *)
Lemma node_opt_dec : forall (f : forest) y v, {node_string f y = Some v} + {node_string f y <> Some v}.
Proof. intros. destruct (node_string f y) as [w|]; [|right; discriminate]. destruct (list_eq_dec Z.eq_dec w v) as [->|N]; [left; reflexivity|right; congruence]. Qed.
Definition has_value (f : forest) (v : str) (y : xnode) : bool := if node_opt_dec f y v then true else false.
Definition copies (f : forest) (v : str) (x : xnode) (ids : list xnode) : list xnode := map (fun _ => x) (filter (has_value f v) ids).
Definition found (f : forest) (k : key) (v : str) (x : xnode) : list xnode :=
  if matched k x then match k_use k x with UseNodes ids => copies f v x ids | _ => [] end else [].
Lemma find_update : forall v w g m, find_in v (update str_eqb w g m) = if str_eqb v w then g (assoc str_eqb w m) else find_in v m.
Proof. intros. unfold find_in. rewrite (assoc_update str_eqb str_eqb_ok). destruct (str_eqb v w); reflexivity. Qed.
Lemma add_found : forall f x ids m m' v, add_ids f x ids m = (m', true) -> s_nodes (find_in v m') = s_nodes (find_in v m) ++ copies f v x ids.
Proof.
  intros f x ids. induction ids as [|i ids IH]; intros m m' v E; cbn [add_ids] in E.
  - injection E as <-. unfold copies. cbn. rewrite app_nil_r. reflexivity.
  - destruct (node_string f i) as [w|] eqn:W; [|discriminate]. rewrite (IH _ _ v E), find_update. unfold copies. cbn [filter]. unfold has_value at 2. destruct (node_opt_dec f i v) as [Y|N].
    + rewrite W in Y. injection Y as ->. rewrite (proj2 (str_eqb_ok v v) eq_refl). cbn [map]. unfold push_node, find_in. destruct (assoc str_eqb v m); cbn [s_nodes new_set]; rewrite <- ?app_assoc; reflexivity.
    + destruct (str_eqb v w) eqn:VW; [apply str_eqb_ok in VW; subst w; congruence|]. reflexivity.
Qed.
Lemma index_found : forall f k l m m' v, index f k l m = (m', true) -> s_nodes (find_in v m') = s_nodes (find_in v m) ++ flat_map (found f k v) l.
Proof.
  intros f k l. induction l as [|x l IH]; intros m m' v E; cbn [index] in E.
  - injection E as <-. cbn. rewrite app_nil_r. reflexivity.
  - cbn [flat_map]. unfold found at 1. destruct (matched k x); [|apply IH; exact E]. destruct (k_use k x) as [ids|s|]; cbn [as_node_set] in E; [|apply IH; exact E|discriminate].
    destruct (add_ids f x ids m) as (m1 & [|]) eqn:AD; [|discriminate]. rewrite (IH _ _ v E), (add_found _ _ _ _ _ v AD), app_assoc. reflexivity.
Qed.
Lemma add_ok : forall f x ids m, Forall (fun y => exists v, node_string f y = Some v) ids -> exists m', add_ids f x ids m = (m', true).
Proof. intros f x ids m F. revert m. induction F as [|i ids (v & V) F IH]; intros m; [exists m; reflexivity|]. cbn [add_ids]. rewrite V. apply IH. Qed.
Lemma index_ok : forall f k l m, (forall x, In x l -> matched k x = true -> exists ids, k_use k x = UseNodes ids /\ Forall (fun y => exists v, node_string f y = Some v) ids) -> exists m', index f k l m = (m', true).
Proof.
  intros f k l. induction l as [|x l IH]; intros m H; [exists m; reflexivity|]. cbn [index]. assert (H' := fun y Y => H y (or_intror Y)). destruct (matched k x) eqn:MX; [|apply IH; exact H'].
  destruct (H x (or_introl eq_refl) MX) as (ids & -> & F). cbn [as_node_set]. destruct (add_ok f x ids m F) as (m1 & ->). apply IH. exact H'.
Qed.
Lemma copies_in : forall f v x ids y, In y (copies f v x ids) <-> y = x /\ exists i, In i ids /\ node_string f i = Some v.
Proof.
  intros. unfold copies. rewrite in_map_iff. split.
  - intros (i & <- & I). apply filter_In in I. destruct I as (I & H). split; [reflexivity|]. exists i. split; [exact I|]. unfold has_value in H. destruct (node_opt_dec f i v); [exact e|discriminate].
  - intros (-> & i & I & H). exists i. split; [reflexivity|]. apply filter_In. split; [exact I|]. unfold has_value. destruct (node_opt_dec f i v); [reflexivity|contradiction].
Qed.
Lemma copies_distinct : forall f v x ids, NoDup (map (node_string f) ids) -> copies f v x ids = [] \/ copies f v x ids = [x].
Proof.
  intros f v x ids. unfold copies. induction ids as [|i ids IH]; intros N; [left; reflexivity|]. cbn [map] in N. apply NoDup_cons_iff in N. destruct N as (N1 & N2). cbn [filter]. destruct (has_value f v i) eqn:HV; [|apply IH; exact N2]. unfold has_value in HV. destruct (node_opt_dec f i v) as [Y|]; [|discriminate].
  right. cbn [map]. f_equal. destruct (filter (has_value f v) ids) as [|j r] eqn:E; [reflexivity|]. exfalso. assert (J : In j (filter (has_value f v) ids)) by (rewrite E; left; reflexivity). apply filter_In in J. destruct J as (J & H). unfold has_value in H. destruct (node_opt_dec f j v) as [Y'|]; [|discriminate].
  apply N1. rewrite Y, <- Y'. apply in_map. exact J.
Qed.
Lemma flat_sorted : forall (R : xnode -> xnode -> Prop) g l, StronglySorted R l -> (forall x, In x l -> g x = [] \/ g x = [x]) -> StronglySorted R (flat_map g l).
Proof.
  intros R g l SO. induction SO as [|x l SO IH F]; intros H; [constructor|]. cbn [flat_map]. assert (H' := fun y Y => H y (or_intror Y)). destruct (H x (or_introl eq_refl)) as [->| ->]; [apply IH; exact H'|]. cbn [app]. constructor; [apply IH; exact H'|].
  rewrite Forall_forall in *. intros y Y. apply in_flat_map in Y. destruct Y as (z & Z & Y). destruct (H' z Z) as [E|E]; rewrite E in Y; [destruct Y|]. destruct Y as [<-|[]]. apply F. exact Z.
Qed.

(** * One key *)
Definition cache_ok (f : forest) (k : key) (c : key_cache) : Prop := forall d m, assoc Nat.eqb d c = Some m -> exists ok, populate f k d = Val (m, ok).
Lemma matched_iff : forall k x, matched k x = true <-> exists p, In p (k_matches k) /\ p x = true.
Proof. intros. unfold matched. apply existsb_exists. Qed.
(** What one key gives. *)
Definition one_answer (f : forest) (k : key) (d : nat) (v : str) (s : nodeset) : Prop :=
  (forall x, In x (s_nodes s) <-> fst x = d /\ has_key f k v x) /\ (distinct_uses f d k -> StronglySorted (precedes f) (s_nodes s)).
Lemma populated : forall f k d, key_document f d -> exists m ok, populate f k d = Val (m, ok) /\ (plain_key f d k -> ok = true /\ forall v, one_answer f k d v (find_in v m)).
Proof.
  intros f k d KD. destruct (walk_document f d KD) as (l & E & IN & SO). unfold populate. rewrite E. destruct (index f k (map (pair d) l) []) as (m & ok) eqn:EX. exists m, ok. split; [reflexivity|]. intros PL.
  assert (EACH : forall x, In x (map (pair d) l) <-> fst x = d /\ In (snd x) (nodes (f_tree f d)) /\ ~ is_attribute (snd x)).
  { intros (e & p). rewrite in_map_iff. cbn. split; [intros (q & Q & I); injection Q as <- <-; split; [reflexivity|apply IN; exact I]|intros (-> & I); exists p; split; [reflexivity|apply IN; exact I]]. }
  destruct (index_ok f k (map (pair d) l) []) as (m' & EX').
  { intros x I MX. apply EACH in I. destruct I as (D & I & N). destruct (PL x D I MX) as (_ & H). exact H. }
  rewrite EX in EX'. injection EX' as <- ->. split; [reflexivity|]. intros v. pose proof (index_found _ _ _ _ _ v EX) as FI. cbn [find_in assoc new_set s_nodes app] in FI. split.
  - intros x. rewrite FI, in_flat_map. split.
    + intros (y & Y & X). apply EACH in Y. destruct Y as (D & I & N). unfold found in X. destruct (matched k y) eqn:MY; [|destruct X]. destruct (k_use k y) as [ids|s|] eqn:U; [|destruct X|destruct X]. apply copies_in in X. destruct X as (-> & i & II & V).
      split; [exact D|]. split; [rewrite D; exact I|]. split; [apply matched_iff; exact MY|]. rewrite U. cbn. eauto.
    + intros (D & I & MX & U). apply matched_iff in MX. rewrite D in I. destruct (PL x D I MX) as (N & ids & EU & FO). exists x. split; [apply EACH; auto|]. unfold found. rewrite MX, EU in *. apply copies_in. split; [reflexivity|exact U].
  - intros DU. rewrite FI. apply flat_sorted; [exact SO|]. intros x X. apply EACH in X. destruct X as (D & I & N). unfold found. destruct (matched k x) eqn:MX; [|left; reflexivity]. destruct (k_use k x) as [ids|s|] eqn:U; [|left; reflexivity|left; reflexivity]. apply copies_distinct. exact (DU x ids D I MX U).
Qed.
Lemma lookup_key_ok : forall f k c x v, cache_ok f k c -> key_document f (fst x) -> exists c' o, lookup_key f k c x v = Val (c', o) /\ cache_ok f k c' /\ (plain_key f (fst x) k -> exists s, o = Some s /\ one_answer f k (fst x) v s).
Proof.
  intros f k c x v CO KD. unfold lookup_key. rewrite (proj1 KD). destruct (populated f k (fst x) KD) as (m & ok & P & A). destruct (assoc Nat.eqb (fst x) c) as [m'|] eqn:E.
  - exists c, (Some (find_in v m')). split; [reflexivity|]. split; [exact CO|]. destruct (CO _ _ E) as (ok' & P'). rewrite P in P'. injection P' as <- <-. intros PL. destruct (A PL) as (-> & AN). exists (find_in v m). split; [reflexivity|apply AN].
  - rewrite P. exists ((fst x, m) :: c), (if ok then Some (find_in v m) else None). split; [reflexivity|]. split.
    + intros d m' E'. cbn [assoc] in E'. destruct (Nat.eqb d (fst x)) eqn:D; [apply Nat.eqb_eq in D; subst d; injection E' as <-; eauto|apply CO; exact E'].
    + intros PL. destruct (A PL) as (-> & AN). exists (find_in v m). split; [reflexivity|apply AN].
Qed.

(** * Several keys *)
Definition entry_ok (f : forest) (e : key * key_cache) : Prop := cache_ok f (fst e) (snd e).
Definition any_key (f : forest) (ks : list key) (d : nat) (v : str) (x : xnode) : Prop := fst x = d /\ exists k, In k ks /\ has_key f k v x.
Lemma key_node_of : forall f k v d x, key_document f d -> fst x = d -> has_key f k v x -> node_of f x.
Proof. intros f k v d x (D & _ & _ & SM) E (I & _). rewrite E in I. split; [rewrite E; exact D|]. rewrite E. split; [exact SM|]. unfold nodes in I. apply filter_In in I. tauto. Qed.
Lemma push_set_nodes : forall n s, s_nodes (push_set n s) = s_nodes s ++ s_nodes n.
Proof. intros. unfold push_set, insert_nodes. cbn. rewrite firstn_all, skipn_all, app_nil_r. reflexivity. Qed.
Lemma lookup_all_ok : forall f x v ks s, Forall (entry_ok f) ks -> key_document f (fst x) ->
  exists ks' o, lookup_all f ks x v s = Val (ks', o) /\ map fst ks' = map fst ks /\ Forall (entry_ok f) ks' /\
    ((forall k, In k (map fst ks) -> plain_key f (fst x) k) -> exists r, o = Some r /\ (forall y, In y (s_nodes r) <-> In y (s_nodes s) \/ any_key f (map fst ks) (fst x) v y) /\ (s_sorted s = false -> s_sorted r = false)).
Proof.
  intros f x v ks. induction ks as [|(k & c) ks IH]; intros s F KD; cbn [lookup_all].
  - exists [], (Some s). split; [reflexivity|]. split; [reflexivity|]. split; [constructor|]. intros _. exists s. split; [reflexivity|]. split; [|tauto]. intros y. split; [tauto|]. intros [I|(_ & k & [] & _)]. exact I.
  - inversion F as [|? ? CO F']; subst. destruct (lookup_key_ok f k c x v CO KD) as (c' & o & E & CO' & A). rewrite E. destruct o as [n|].
    + destruct (IH (push_set n s) F' KD) as (ks' & o & E' & M & F2 & A'). rewrite E'. exists ((k, c') :: ks'), o. split; [reflexivity|]. split; [cbn; rewrite M; reflexivity|]. split; [constructor; [exact CO'|exact F2]|].
      intros PL. destruct (A (PL k (or_introl eq_refl))) as (n' & EN & IN & _). injection EN as <-. destruct (A' (fun k' K' => PL k' (or_intror K'))) as (r & -> & INR & SR). exists r. split; [reflexivity|]. split; [|intros _; apply SR; reflexivity].
      intros y. rewrite INR, push_set_nodes, in_app_iff, IN. unfold any_key. cbn [map fst In]. split.
      * intros [[I|(D & H)]|(D & k' & K' & H)]; [tauto|right; eauto|right; eauto].
      * intros [I|(D & k' & [<-|K'] & H)]; [tauto|left; right; tauto|right; eauto].
    + exists ((k, c') :: ks), None. split; [reflexivity|]. split; [reflexivity|]. split; [constructor; [exact CO'|exact F']|]. intros PL. destruct (A (PL k (or_introl eq_refl))) as (n' & EN & _). discriminate.
Qed.
Lemma ordered_answer : forall ss f r (P : xnode -> Prop), sorts ss -> documents f -> (forall x, P x -> node_of f x) -> (forall y, In y (s_nodes r) <-> P y) -> s_sorted r = false ->
  StronglySorted (precedes f) (s_nodes (to_document_order ss f r)) /\ (forall y, In y (s_nodes (to_document_order ss f r)) <-> P y).
Proof.
  intros ss f r P SS D N IN SR. assert (G : good_set f r) by (split; [apply Forall_forall; intros y Y; apply N, IN, Y|congruence]).
  destruct (to_document_order_spec ss f r SS D G) as ((F2 & O2) & S2 & E2 & IN2). split; [|intros y; rewrite IN2; apply IN]. specialize (O2 S2). rewrite E2 in O2. apply (lt_precedes f _ true) in O2; auto.
Qed.
Lemma lookup_keys_ok : forall ss f x v ks, sorts ss -> documents f -> Forall (entry_ok f) ks -> key_document f (fst x) ->
  exists ks' o, lookup_keys ss f ks x v = Val (ks', o) /\ map fst ks' = map fst ks /\ Forall (entry_ok f) ks' /\
    ((forall k, In k (map fst ks) -> plain_key f (fst x) k) -> exists r, o = Some r /\ (forall y, In y (s_nodes r) <-> any_key f (map fst ks) (fst x) v y) /\
      ((forall k, map fst ks = [k] -> distinct_uses f (fst x) k) -> StronglySorted (precedes f) (s_nodes r))).
Proof.
  intros ss f x v ks SS D F KD.
  assert (MANY : exists ks' o, match lookup_all f ks x v (new_set true) with Val (ks', o) => Val (ks', option_map (to_document_order ss f) o) | UB => UB | Base.NoFuel => Base.NoFuel end = Val (ks', o) /\ map fst ks' = map fst ks /\ Forall (entry_ok f) ks' /\
    ((forall k, In k (map fst ks) -> plain_key f (fst x) k) -> exists r, o = Some r /\ (forall y, In y (s_nodes r) <-> any_key f (map fst ks) (fst x) v y) /\
      ((forall k, map fst ks = [k] -> distinct_uses f (fst x) k) -> StronglySorted (precedes f) (s_nodes r)))).
  { destruct (lookup_all_ok f x v ks (new_set true) F KD) as (ks' & o & E & M & F' & A). rewrite E. exists ks', (option_map (to_document_order ss f) o). split; [reflexivity|]. split; [exact M|]. split; [exact F'|]. intros PL. destruct (A PL) as (r & -> & IN & SR).
    destruct (ordered_answer ss f r (any_key f (map fst ks) (fst x) v) SS D) as (O & IN2); [intros y (Y & k & _ & H); exact (key_node_of f k v (fst x) y KD Y H)|intros y; rewrite IN; cbn; tauto|apply SR; reflexivity|].
    exists (to_document_order ss f r). split; [reflexivity|]. split; [exact IN2|]. intros _. exact O. }
  unfold lookup_keys. destruct ks as [|(k & c) [|e ks]]; [exact MANY| |exact MANY]. clear MANY. inversion F as [|? ? CO F']; subst. destruct (lookup_key_ok f k c x v CO KD) as (c' & o & E & CO' & A). rewrite E. exists [(k, c')], o. split; [reflexivity|]. split; [reflexivity|]. split; [constructor; [exact CO'|constructor]|].
  intros PL. destruct (A (PL k (or_introl eq_refl))) as (r & -> & IN & SO). exists r. split; [reflexivity|]. split.
  - intros y. rewrite IN. unfold any_key. cbn. split; [intros (Y & H); eauto|intros (Y & k' & [<-|[]] & H); auto].
  - intros DU. apply SO, DU. reflexivity.
Qed.

(** * The declared keys *)
Definition named (name : str) (keys : list (str * key)) : list key := map snd (filter (fun nk => str_eqb name (fst nk)) keys).
Definition state_ok (f : forest) (keys : list (str * key)) (D : declared) : Prop :=
  forall name, match assoc str_eqb name D with
               | Some ks => map fst ks = named name keys /\ ks <> [] /\ Forall (entry_ok f) ks
               | None => named name keys = []
               end.
Lemma in_named : forall name keys k, In k (named name keys) <-> In (name, k) keys.
Proof.
  intros. unfold named. rewrite in_map_iff. split.
  - intros ((n & k') & <- & I). apply filter_In in I. destruct I as (I & E). cbn in E. apply str_eqb_ok in E. subst n. exact I.
  - intros I. exists (name, k). split; [reflexivity|]. apply filter_In. split; [exact I|]. cbn. apply str_eqb_ok. reflexivity.
Qed.
Lemma named_one : forall name keys k, named name keys = [k] -> filter (fun nk => str_eqb name (fst nk)) keys = [(name, k)].
Proof.
  intros name keys k E. unfold named in E. destruct (filter _ keys) as [|(n & k') r] eqn:FE; [discriminate|]. destruct r; [|discriminate]. cbn in E. injection E as ->. assert (I : In (n, k) (filter (fun nk => str_eqb name (fst nk)) keys)) by (rewrite FE; left; reflexivity). apply filter_In in I. destruct I as (_ & E). cbn in E. apply str_eqb_ok in E. subst n. reflexivity.
Qed.
Lemma declared_ok : forall f keys, state_ok f keys (declare_keys keys).
Proof.
  intros f keys. unfold declare_keys. enough (G : forall more D keys0, state_ok f keys0 D -> state_ok f (keys0 ++ more) (fold_left (fun D nk => update str_eqb (fst nk) (fun o => or_empty o ++ [(snd nk, [])]) D) more D)) by (apply (G keys [] []); intros name; reflexivity).
  intros more. induction more as [|(n & k) more IH]; intros D keys0 OK; [rewrite app_nil_r; exact OK|]. cbn [fold_left]. replace (keys0 ++ (n, k) :: more) with ((keys0 ++ [(n, k)]) ++ more) by (rewrite <- app_assoc; reflexivity). apply IH.
  intros name. cbn [fst snd]. rewrite (assoc_update str_eqb str_eqb_ok). unfold named. rewrite filter_app, map_app. cbn [filter fst]. specialize (OK name). unfold named in OK. destruct (str_eqb name n) eqn:E.
  - apply str_eqb_ok in E. subst n. cbn [map snd]. assert (EK : entry_ok f (k, [])) by (intros d m A; discriminate). destruct (assoc str_eqb name D) as [ks|]; cbn [or_empty].
    + destruct OK as (M & N & F). split; [etransitivity; [apply map_app|]; refine (f_equal2 (@app _) M eq_refl)|]. split; [destruct ks; discriminate|]. apply Forall_app. split; [exact F|constructor; [exact EK|constructor]].
    + rewrite OK. split; [reflexivity|]. split; [discriminate|]. constructor; [exact EK|constructor].
  - cbn [map]. rewrite app_nil_r. exact OK.
Qed.
Lemma lookup_ok : forall ss f keys D name x v, sorts ss -> documents f -> state_ok f keys D -> key_document f (fst x) ->
  exists D' o, lookup ss f D name x v = Val (D', o) /\ state_ok f keys D' /\ (named name keys = [] -> o = None) /\
    (named name keys <> [] -> (forall k, In k (named name keys) -> plain_key f (fst x) k) -> exists r, o = Some r /\ (forall y, In y (s_nodes r) <-> any_key f (named name keys) (fst x) v y) /\
      ((forall k, named name keys = [k] -> distinct_uses f (fst x) k) -> StronglySorted (precedes f) (s_nodes r))).
Proof.
  intros ss f keys D name x v SS DO OK KD. unfold lookup. pose proof (OK name) as OKN. destruct (assoc str_eqb name D) as [ks|] eqn:E.
  - destruct OKN as (M & N & F). destruct (lookup_keys_ok ss f x v ks SS DO F KD) as (ks' & o & -> & M' & F' & A). eexists _, o. split; [reflexivity|]. split; [|split].
    + intros name'. rewrite (assoc_update str_eqb str_eqb_ok). destruct (str_eqb name' name) eqn:E'; [|apply OK]. apply str_eqb_ok in E'. subst name'. split; [rewrite M'; exact M|]. split; [destruct ks'; [|discriminate]; destruct ks; [contradiction|discriminate]|exact F'].
    + rewrite <- M. destruct ks; [contradiction|discriminate].
    + rewrite <- M. intros _ PL. apply A. exact PL.
  - exists D, None. split; [reflexivity|]. split; [exact OK|]. split; [reflexivity|]. contradiction.
Qed.
Lemma lookup_nodes_ok : forall ss f keys name x l D s, sorts ss -> documents f -> state_ok f keys D -> key_document f (fst x) ->
  exists D' o, lookup_nodes ss f D name x l s = Val (D', o) /\ state_ok f keys D' /\ (named name keys = [] -> l <> [] -> o = None) /\
    (named name keys <> [] -> (forall k, In k (named name keys) -> plain_key f (fst x) k) -> Forall (fun y => exists v, node_string f y = Some v) l -> exists r, o = Some r /\
      (forall y, In y (s_nodes r) <-> In y (s_nodes s) \/ exists v z, In z l /\ node_string f z = Some v /\ any_key f (named name keys) (fst x) v y) /\ (s_sorted s = false -> s_sorted r = false)).
Proof.
  intros ss f keys name x l. induction l as [|z l IH]; intros D s SS DO OK KD; cbn [lookup_nodes].
  - exists D, (Some s). split; [reflexivity|]. split; [exact OK|]. split; [contradiction|]. intros _ _ _. exists s. split; [reflexivity|]. split; [|tauto]. intros y. split; [tauto|]. intros [I|(v & z & [] & _)]. exact I.
  - destruct (node_string f z) as [v|] eqn:V.
    2:{ exists D, None. split; [reflexivity|]. split; [exact OK|]. split; [reflexivity|]. intros _ _ FO. inversion FO as [|? ? (v & V') _]; subst. congruence. }
    destruct (lookup_ok ss f keys D name x v SS DO OK KD) as (D1 & o1 & -> & OK1 & NO & A). destruct o1 as [n|].
    + destruct (IH D1 (push_set n s) SS DO OK1 KD) as (D2 & o & -> & OK2 & NO2 & A2). exists D2, o. split; [reflexivity|]. split; [exact OK2|]. split; [intros N; specialize (NO N); discriminate|].
      intros N PL FO. inversion FO as [|? ? _ FO']; subst. destruct (A N PL) as (n' & EN & IN & _). injection EN as <-. destruct (A2 N PL FO') as (r & -> & INR & SR). exists r. split; [reflexivity|]. split; [|intros _; apply SR; reflexivity].
      intros y. rewrite INR, push_set_nodes, in_app_iff, IN. split.
      * intros [[I|H]|(v' & z' & Z & V' & H)]; [tauto|right; exists v, z; split; [left; reflexivity|tauto]|right; exists v', z'; split; [right; exact Z|tauto]].
      * intros [I|(v' & z' & [<-|Z] & V' & H)]; [tauto|left; right; congruence|right; exists v', z'; tauto].
    + exists D1, None. split; [reflexivity|]. split; [exact OK1|]. split; [reflexivity|]. intros N PL _. destruct (A N PL) as (n' & EN & _). discriminate.
Qed.
Lemma function_ok : forall ss f keys D c, sorts ss -> documents f -> state_ok f keys D -> key_document f (fst (kc_current c)) ->
  exists D' o, key_function ss f D (kc_name c) (kc_arg c) (kc_context c) (kc_current c) = Val (D', o) /\ state_ok f keys D' /\ call_answer f keys c (option_map s_nodes o).
Proof.
  intros ss f keys D c SS DO OK KD. destruct c as [name a context x]. unfold call_answer, good_call. cbn [kc_name kc_arg kc_context kc_current] in *.
  assert (NONE : (forall k, ~ In (name, k) keys) -> named name keys = []) by (intros H; destruct (named name keys) as [|k r] eqn:E; [reflexivity|]; exfalso; apply (H k), in_named; rewrite E; left; reflexivity).
  assert (SOME : (exists k, In (name, k) keys) -> named name keys <> []) by (intros (k & K) E; apply in_named in K; rewrite E in K; destruct K).
  destruct a as [l|v]; cbn [key_function].
  - destruct (lookup_nodes_ok ss f keys name x l D (new_set true) SS DO OK KD) as (D' & o & -> & OK' & NO & A). exists D', (option_map (to_document_order ss f) o). split; [reflexivity|]. split; [exact OK'|]. split.
    + intros (CU & _ & EX & PL & FO). destruct (A (SOME EX)) as (r & -> & IN & SR); [intros k K; rewrite CU; apply PL, in_named, K|exact FO|].
      destruct (ordered_answer ss f r (key_node f keys name (ArgNodes l) (fst context)) SS DO) as (O & IN2).
      * intros y (Y & k & v & _ & _ & H). exact (key_node_of f k v (fst x) y KD (eq_trans Y (eq_sym CU)) H).
      * intros y. rewrite IN. rewrite CU. unfold key_node, any_key. cbn [new_set s_nodes In arg_value]. split.
        -- intros [[]|(v & z & Z & V & Y & k & K & H)]. split; [exact Y|]. exists k, v. split; [apply in_named; exact K|]. eauto.
        -- intros (Y & k & v & K & (z & Z & V) & H). right. exists v, z. split; [exact Z|]. split; [exact V|]. split; [exact Y|]. exists k. split; [apply in_named; exact K|exact H].
      * apply SR. reflexivity.
      * eexists. split; [reflexivity|]. split; [exact O|exact IN2].
    + intros N NE. rewrite NO; [reflexivity|apply NONE, N|]. intros ->. apply NE. reflexivity.
  - destruct (lookup_ok ss f keys D name x v SS DO OK KD) as (D' & o & -> & OK' & NO & A). exists D', o. split; [reflexivity|]. split; [exact OK'|]. split.
    + intros (CU & _ & EX & PL & DU). destruct (A (SOME EX)) as (r & -> & IN & SO); [intros k K; rewrite CU; apply PL, in_named, K|]. eexists. split; [reflexivity|]. split.
      * apply SO. intros k K. rewrite CU. apply DU. apply named_one. exact K.
      * intros y. rewrite IN, CU. unfold any_key, key_node. cbn [arg_value]. split.
        -- intros (Y & k & K & H). split; [exact Y|]. exists k, v. split; [apply in_named; exact K|]. auto.
        -- intros (Y & k & w & K & -> & H). split; [exact Y|]. exists k. split; [apply in_named; exact K|exact H].
    + intros N _. rewrite NO; [reflexivity|]. apply NONE, N.
Qed.
Lemma calls_ok : forall ss f keys cs, sorts ss -> documents f -> Forall (fun c => key_document f (fst (kc_current c))) cs ->
  exists os, run_calls ss f (declare_keys keys) cs = Val os /\ Forall2 (call_answer f keys) cs os.
Proof.
  intros ss f keys cs SS DO F. generalize (declared_ok f keys). generalize (declare_keys keys). induction F as [|c cs KD F IH]; intros D OK; [exists []; split; [reflexivity|constructor]|].
  cbn [run_calls]. destruct (function_ok ss f keys D c SS DO OK KD) as (D' & o & -> & OK' & A). destruct (IH D' OK') as (os & -> & FO). eexists. split; [reflexivity|]. constructor; [exact A|exact FO].
Qed.
