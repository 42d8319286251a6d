From Verif.Model Require Import Base XNode XAxis.
From Verif.Spec Require Import XOrder XAxisSpec.
From Verif.Proof Require Import Tac ContainersProof XOrderProof.

(** * picks *)
Lemma picks_app : forall {A} (P : A -> Prop) l1 m1 l2 m2, picks P l1 m1 -> picks P l2 m2 -> picks P (l1 ++ l2) (m1 ++ m2).
Proof. intros A P l1 m1 l2 m2 H1 H2. induction H1; cbn; [exact H2|apply picks_in; auto|apply picks_out; auto]. Qed.
Lemma picks_part : forall {A} (P : A -> Prop) (c g : A -> bool) l, (forall y, In y l -> (g y = true <-> c y = true /\ P y)) -> picks P (filter c l) (filter g l).
Proof.
  intros A P c g l. induction l as [|y l IH]; intros H; [constructor|]. cbn [filter]. assert (I : picks P (filter c l) (filter g l)) by (apply IH; intros; apply H; right; assumption).
  specialize (H y (or_introl eq_refl)). destruct (c y), (g y).
  - apply picks_in; [apply H; reflexivity|exact I].
  - apply picks_out; [|exact I]. intros X. destruct H as (_ & H). specialize (H (conj eq_refl X)). discriminate.
  - destruct H as (H & _). destruct (H eq_refl). discriminate.
  - exact I.
Qed.
Lemma picks_none : forall {A} (P : A -> Prop) (c : A -> bool) l, (forall y, In y l -> c y = true -> ~ P y) -> picks P (filter c l) [].
Proof.
  intros A P c l H. replace (@nil A) with (filter (fun _ : A => false) l) by (clear; induction l; auto). apply picks_part. intros y Y. split; [discriminate|]. intros (C & X). exfalso. apply (H y Y C X).
Qed.
Lemma picks_all : forall {A} (P : A -> Prop) (c : A -> bool) l, (forall y, In y l -> c y = true -> P y) -> picks P (filter c l) (filter c l).
Proof. intros A P c l H. apply picks_part. intros y Y. split; [intros C; split; auto|tauto]. Qed.

(** * The nodes of a tree *)
Fixpoint kids_only (p : path) : Prop := match p with [] => True | Kid _ :: q => kids_only q | _ => False end.
Lemma subtree_app : forall t l p, subtree t (l ++ p) = match subtree t p with Some u => subtree u l | None => None end.
Proof.
  intros t l p. induction l as [|s l IH]; cbn [app subtree]; [destruct (subtree t p); reflexivity|]. rewrite IH. destruct (subtree t p); reflexivity.
Qed.
Lemma in_order_at : forall t p x, In x (order t p) <-> (exists l, x = l ++ p /\ kids_only l /\ exists u, subtree t l = Some u) \/
  (exists i l, x = Att i :: l ++ p /\ kids_only l /\ exists u, subtree t (Att i :: l) = Some u).
Proof.
  induction t as [i a k _ IH] using xtree_ind2. intros p x. rewrite order_eq. cbn [In]. rewrite in_app_iff, in_attributes, in_orders. rewrite Forall_forall in IH. split.
  - intros [<-|[(j & J & ->)|(j & kj & E & I)]].
    + left. exists []. repeat split. eexists. reflexivity.
    + right. exists j, []. split; [reflexivity|]. split; [exact Logic.I|]. cbn. destruct (nth_error a j) as [u|] eqn:N; [exists u; reflexivity|]. apply nth_error_None in N. lia.
    + assert (IN : In kj k) by (eapply nth_error_In; exact E). apply (IH _ IN) in I. cbn [Nat.add] in I.
      destruct I as [(l & -> & KO & u & U)|(n & l & -> & KO & u & U)]; [left; exists (l ++ [Kid j])|right; exists n, (l ++ [Kid j])]; rewrite <- app_assoc; (split; [reflexivity|]); (split; [clear - KO; induction l as [|[]]; cbn in *; auto|]); exists u.
      * rewrite subtree_app. cbn [subtree t_kids]. rewrite E. exact U.
      * change (Att n :: l ++ [Kid j]) with ((Att n :: l) ++ [Kid j]). rewrite subtree_app. cbn [subtree t_kids]. rewrite E. exact U.
  - assert (SN : forall l, kids_only l -> l <> [] -> exists l' j, l = l' ++ [Kid j] /\ kids_only l').
    { induction l as [|s l IHl]; intros KO NE; [contradiction|]. destruct s as [n|n|]; try contradiction. destruct l as [|s l].
      - exists [], n. split; [reflexivity|exact Logic.I].
      - destruct (IHl KO ltac:(discriminate)) as (l' & j & E & KO'). exists (Kid n :: l'), j. rewrite E. split; [reflexivity|exact KO']. }
    intros [(l & -> & KO & u & U)|(n & l & -> & KO & u & U)].
    + destruct l as [|s l0] eqn:EL; [left; reflexivity|]. right. right. rewrite <- EL in *. destruct (SN l KO ltac:(rewrite EL; discriminate)) as (l' & j & E & KO'). rewrite E in *. rewrite subtree_app in U. cbn [subtree t_kids] in U.
      destruct (nth_error k j) as [kj|] eqn:NJ; [|discriminate]. exists j, kj. split; [exact NJ|]. apply (IH _ (nth_error_In _ _ NJ)). left. exists l'. rewrite <- app_assoc. split; [reflexivity|]. split; [exact KO'|]. exists u. exact U.
    + right. destruct l as [|s l0] eqn:EL.
      * left. exists n. split; [|reflexivity]. cbn in U. assert (n < length a)%nat by (apply nth_error_Some; congruence). lia.
      * right. rewrite <- EL in *. destruct (SN l KO ltac:(rewrite EL; discriminate)) as (l' & j & E & KO'). rewrite E in *. change (Att n :: l' ++ [Kid j]) with ((Att n :: l') ++ [Kid j]) in U. rewrite subtree_app in U. cbn [subtree t_kids] in U.
        destruct (nth_error k j) as [kj|] eqn:NJ; [|discriminate]. exists j, kj. split; [exact NJ|]. apply (IH _ (nth_error_In _ _ NJ)). right. exists n, l'. rewrite <- app_assoc. split; [reflexivity|]. split; [exact KO'|]. exists u. exact U.
Qed.
Lemma in_order : forall t x, In x (order t []) <-> (kids_only x /\ exists u, subtree t x = Some u) \/ (exists i q, x = Att i :: q /\ kids_only q /\ exists u, subtree t x = Some u).
Proof.
  intros t x. rewrite in_order_at. split.
  - intros [(l & -> & K & U)|(i & l & -> & K & U)]; [left|right; exists i, (l ++ [])]; rewrite !app_nil_r in *; auto.
  - intros [(K & U)|(i & q & -> & K & U)]; [left; exists x|right; exists i, q]; rewrite app_nil_r; auto.
Qed.
Lemma suffix_eq : forall {A} (l m : list A) p q, l ++ p = m ++ q -> length p = length q -> l = m /\ p = q.
Proof.
  intros A l m p q E L. assert (LE : length l = length m) by (apply (f_equal (@length A)) in E; rewrite !app_length in E; lia).
  revert m LE E. induction l as [|x l IH]; intros [|y m] LE E; try discriminate; [auto|]. cbn in E. injection E as -> E. destruct (IH m ltac:(cbn in LE; lia) E) as (-> & ->). auto.
Qed.
Lemma nodup_app : forall {A} (l m : list A), NoDup l -> NoDup m -> (forall x, In x l -> In x m -> False) -> NoDup (l ++ m).
Proof.
  intros A l m L M H. induction L as [|x l X L IH]; [exact M|]. cbn. constructor; [intros I; apply in_app_or in I; destruct I as [I|I]; [contradiction|apply (H x); [left; reflexivity|exact I]]|apply IH; intros y Y; apply H; right; exact Y].
Qed.
Lemma order_nodup : forall t p, NoDup (order t p).
Proof.
  induction t as [i a k _ IH] using xtree_ind2. intros p. rewrite order_eq. constructor.
  - intros I. apply in_app_or in I. destruct I as [I|I].
    + apply in_attributes in I. destruct I as (j & _ & E). apply (f_equal (@length xstep)) in E. cbn in E. lia.
    + apply in_orders in I. destruct I as (j & kj & _ & I). apply in_order_suffix in I. destruct I as (l & E). apply (f_equal (@length xstep)) in E. rewrite app_length in E. cbn in E. lia.
  - apply nodup_app.
    + generalize O. clear. induction a as [|x a IH]; intros n; cbn [attributes_of]; constructor; [|apply IH]. intros I. apply in_attributes in I. destruct I as (j & J & E). injection E as E. lia.
    + generalize O. induction IH as [|x k X F IHk]; intros n; cbn [orders]; [constructor|]. apply nodup_app; [apply X|apply IHk|].
      intros y Y Y'. apply in_order_suffix in Y. destruct Y as (l & ->). apply in_orders in Y'. destruct Y' as (j & kj & _ & Y'). apply in_order_suffix in Y'. destruct Y' as (m & E).
      apply suffix_eq in E; [|reflexivity]. destruct E as (_ & E). injection E as E. lia.
    + intros x X Y. apply in_attributes in X. destruct X as (j & _ & ->). apply in_orders in Y. destruct Y as (m & km & _ & Y). apply in_order_suffix in Y. destruct Y as (l & E). destruct l as [|s l]; [discriminate|]. cbn in E. injection E as _ E. apply (f_equal (@length xstep)) in E. rewrite app_length in E. cbn in E. lia.
Qed.
Lemma before_unique : forall {A} (l : list A) x y, NoDup l -> before l x y -> before l y x -> False.
Proof.
  intros A l x y N (a & b & c & E) (a' & b' & c' & E'). subst l.
  assert (I : exists n m, nth_error (a ++ x :: b ++ y :: c) n = Some x /\ nth_error (a ++ x :: b ++ y :: c) m = Some y /\ (n < m)%nat).
  { exists (length a), (length a + S (length b))%nat. rewrite nth_error_app2, Nat.sub_diag by lia. split; [reflexivity|]. rewrite nth_error_app2 by lia. replace (length a + S (length b) - length a)%nat with (S (length b)) by lia. cbn. rewrite nth_error_app2, Nat.sub_diag by lia. split; [reflexivity|lia]. }
  assert (I' : exists n m, nth_error (a ++ x :: b ++ y :: c) n = Some y /\ nth_error (a ++ x :: b ++ y :: c) m = Some x /\ (n < m)%nat).
  { rewrite E'. exists (length a'), (length a' + S (length b'))%nat. rewrite nth_error_app2, Nat.sub_diag by lia. split; [reflexivity|]. rewrite nth_error_app2 by lia. replace (length a' + S (length b') - length a')%nat with (S (length b')) by lia. cbn. rewrite nth_error_app2, Nat.sub_diag by lia. split; [reflexivity|lia]. }
  destruct I as (n & m & I1 & I2 & L). destruct I' as (n' & m' & I3 & I4 & L'). rewrite NoDup_nth_error in N.
  assert (n = m') by (apply N; [apply nth_error_Some; congruence|congruence]). assert (m = n') by (apply N; [apply nth_error_Some; congruence|congruence]). lia.
Qed.

(** * What comes before and after a node *)
Fixpoint earlier (t : xtree) (p : path) : list path :=
  match p with
  | Kid i :: q => match subtree t q with
                  | Some (Xt _ a k) => earlier t q ++ q :: attributes_of q 0 a ++ orders q 0 (firstn i k)
                  | None => []
                  end
  | _ => []
  end.
Fixpoint after (t : xtree) (p : path) : list path :=
  match p with
  | Kid i :: q => match subtree t q with
                  | Some (Xt _ a k) => orders q (S i) (skipn (S i) k) ++ after t q
                  | None => []
                  end
  | _ => []
  end.
Lemma orders_app : forall l m p i, orders p i (l ++ m) = orders p i l ++ orders p (i + length l) m.
Proof. induction l as [|x l IH]; intros m p i; cbn [orders app length]; [rewrite Nat.add_0_r; reflexivity|]. rewrite IH, <- app_assoc. do 3 f_equal. lia. Qed.
Lemma nth_split3 : forall {A} (l : list A) i x, nth_error l i = Some x -> l = firstn i l ++ x :: skipn (S i) l /\ length (firstn i l) = i.
Proof.
  intros A l. induction l as [|y l IH]; intros [|i] x E; try discriminate; cbn in *.
  - injection E as ->. split; reflexivity.
  - destruct (IH _ _ E) as (E1 & E2). split; [f_equal; exact E1|rewrite E2; reflexivity].
Qed.
Lemma order_split : forall t p u, kids_only p -> subtree t p = Some u -> order t [] = earlier t p ++ order u p ++ after t p.
Proof.
  intros t. induction p as [|s p IH]; intros u K U; [cbn in U; injection U as <-; cbn; rewrite app_nil_r; reflexivity|].
  destruct s as [i| |]; try contradiction. cbn [subtree] in U. cbn [earlier after]. destruct (subtree t p) as [w|] eqn:W; [|discriminate]. rewrite (IH w K eq_refl). destruct w as [iw a k]. cbn [t_kids] in U. rewrite order_eq.
  destruct (nth_split3 k i u U) as (E & L). rewrite E at 1. rewrite orders_app, L. cbn [orders Nat.add app]. rewrite <- !app_assoc. cbn [app]. rewrite <- !app_assoc. reflexivity.
Qed.

(** * Shapes *)
Definition good_kid (k : xtree) : Prop := t_kind k <> Xattribute /\ t_kind k <> Xdocument.
Lemma shape_eq : forall i a k, shape_ok (Xt i a k) <-> (a <> [] -> i_kind i = Xelement) /\ (k <> [] -> match i_kind i with Xdocument | Xfragment | Xelement | Xentityref => True | _ => False end) /\
  Forall (fun a => t_kind a = Xattribute /\ t_attrs a = []) a /\ Forall good_kid k /\ Forall shape_ok k.
Proof.
  intros i a k. cbn [shape_ok]. split; intros (A & B & C & D); (split; [exact A|split; [exact B|split; [exact C|]]]).
  - clear - D. induction k as [|x k IH]; [split; constructor|]. destruct D as (D1 & D2 & D3). destruct (IH D3) as (I1 & I2). split; constructor; auto.
  - clear - D. destruct D as (D1 & D2). induction k as [|x k IH]; [exact I|]. inversion D1 as [|? ? E1 E2]; inversion D2 as [|? ? E3 E4]; subst. split; [exact E1|split; [exact E3|exact (IH E2 E4)]].
Qed.
Lemma shape_sub : forall t p u, shape_ok t -> kids_only p -> subtree t p = Some u -> shape_ok u.
Proof.
  intros t. induction p as [|s p IH]; intros u SH K U; [cbn in U; congruence|]. destruct s as [i| |]; try contradiction. cbn [subtree] in U. destruct (subtree t p) as [w|]; [|discriminate].
  specialize (IH w SH K eq_refl). destruct w as [iw a k]. apply shape_eq in IH. destruct IH as (_ & _ & _ & _ & F). rewrite Forall_forall in F. apply F. eapply nth_error_In. exact U.
Qed.
Lemma kid_good : forall t i p u, shape_ok t -> kids_only p -> subtree t (Kid i :: p) = Some u -> good_kid u.
Proof.
  intros t i p u SH K U. cbn [subtree] in U. destruct (subtree t p) as [w|] eqn:W; [|discriminate]. apply (shape_sub _ _ _ SH K) in W. destruct w as [iw a k]. apply shape_eq in W. destruct W as (_ & _ & _ & F & _). rewrite Forall_forall in F. apply F. eapply nth_error_In. exact U.
Qed.
Lemma text_leaf : forall u, shape_ok u -> tree_is_text u = true -> exists i, u = Xt i [] [].
Proof.
  intros [i a k] SH T. apply shape_eq in SH. destruct SH as (A & B & _). unfold tree_is_text, t_kind in T. cbn [t_info] in T. exists i.
  destruct a; [|rewrite A in T by discriminate; discriminate]. destruct k; [reflexivity|]. specialize (B ltac:(discriminate)). destruct (i_kind i); try discriminate; contradiction.
Qed.
Lemma notext_kids : forall u, shape_ok u -> t_kids u <> [] -> tree_is_text u = false.
Proof. intros u SH K. destruct (tree_is_text u) eqn:T; [|reflexivity]. destruct (text_leaf u SH T) as (i & ->). contradiction. Qed.

(** * Children that count *)
Fixpoint counted (i : nat) (prev : bool) (l : list xtree) : list nat :=
  match l with [] => [] | k :: r => (if prev && tree_is_text k then [] else [i]) ++ counted (S i) (tree_is_text k) r end.
Lemma skip_counted : forall l i, skip_texts l i = hd_error (counted i true l).
Proof. induction l as [|k l IH]; intros i; [reflexivity|]. cbn [skip_texts counted andb]. destruct (tree_is_text k); [exact (IH _)|reflexivity]. Qed.
Lemma find_next : forall t q w i k, subtree t q = Some w -> nth_error (t_kids w) i = Some k ->
  find_next_sibling t (Kid i :: q) = option_map (fun j => Kid j :: q) (hd_error (counted (S i) (tree_is_text k) (skipn (S i) (t_kids w)))).
Proof.
  intros t q w i k W K. unfold find_next_sibling, is_text, next_sibling. cbn [subtree]. rewrite W, K. destruct (tree_is_text k); cbn [negb].
  - rewrite skip_counted. reflexivity.
  - destruct (nth_error (t_kids w) (S i)) as [k'|] eqn:N.
    + destruct (nth_split3 _ _ _ N) as (E & L). assert (S1 : skipn (S i) (t_kids w) = k' :: skipn (S (S i)) (t_kids w)).
      { rewrite E at 1. rewrite skipn_app, L, Nat.sub_diag. rewrite skipn_all2 by lia. reflexivity. }
      rewrite S1. reflexivity.
    + apply nth_error_None in N. rewrite skipn_all2 by lia. reflexivity.
Qed.
Definition attb (p : path) : bool := match p with Att _ :: _ => true | _ => false end.
Definition good (t : xtree) (p : path) : bool := negb (continues t p) && negb (attb p).
Fixpoint cn (u : xtree) (p : path) : list path :=
  match u with
  | Xt _ _ kids => p :: (fix go i prev l := match l with [] => [] | k :: r => (if prev && tree_is_text k then [] else cn k (Kid i :: p)) ++ go (S i) (tree_is_text k) r end) O false kids
  end.
Fixpoint cns (p : path) (i : nat) (prev : bool) (l : list xtree) : list path :=
  match l with [] => [] | k :: r => (if prev && tree_is_text k then [] else cn k (Kid i :: p)) ++ cns p (S i) (tree_is_text k) r end.
Lemma cn_eq : forall i a k p, cn (Xt i a k) p = p :: cns p 0 false k.
Proof. intros i a k p. cbn [cn]. f_equal. generalize O, false. induction k as [|x k IH]; intros n b; [reflexivity|]. cbn [cns]. rewrite <- IH. reflexivity. Qed.
Lemma hd_cns : forall l p i prev, hd_error (cns p i prev l) = option_map (fun j => Kid j :: p) (hd_error (counted i prev l)).
Proof. induction l as [|k l IH]; intros p i prev; [reflexivity|]. cbn [cns counted]. destruct (prev && tree_is_text k); [apply IH|]. destruct k as [ik a kk]. rewrite cn_eq. reflexivity. Qed.

Definition flag_at (w : xtree) (i : nat) : bool := match i with O => false | S j => match nth_error (t_kids w) j with Some k => tree_is_text k | None => false end end.
Lemma continues_kid : forall t q w i k, subtree t q = Some w -> nth_error (t_kids w) i = Some k -> continues t (Kid i :: q) = flag_at w i && tree_is_text k.
Proof.
  intros t q w i k W K. unfold continues, is_text. cbn [subtree prev_sibling]. rewrite W, K. destruct i as [|i]; cbn [flag_at]; [rewrite andb_false_r; reflexivity|]. cbn [subtree]. rewrite W. apply andb_comm.
Qed.
Lemma good_orders : forall t w p l i, kids_only p -> subtree t p = Some w -> (forall j k, nth_error l j = Some k -> nth_error (t_kids w) (i + j) = Some k) ->
  Forall (fun k => forall p, kids_only p -> subtree t p = Some k -> filter (good t) (order k p) = if continues t p then [] else cn k p) l ->
  filter (good t) (orders p i l) = cns p i (flag_at w i) l.
Proof.
  intros t w p l. induction l as [|k l IH]; intros i K W N F; [reflexivity|]. inversion F as [|? ? F1 F2]; subst. cbn [orders cns]. rewrite filter_app.
  assert (NK : nth_error (t_kids w) i = Some k) by (specialize (N O k eq_refl); rewrite Nat.add_0_r in N; exact N).
  rewrite (F1 (Kid i :: p)); [|exact K|cbn [subtree]; rewrite W; exact NK]. rewrite (continues_kid _ _ _ _ _ W NK). f_equal.
  replace (tree_is_text k) with (flag_at w (S i)) by (cbn [flag_at]; rewrite NK; reflexivity). apply IH; [exact K|exact W| |exact F2]. intros j x E. specialize (N (S j) x E). rewrite Nat.add_succ_r in N. exact N.
Qed.
Lemma filter_att : forall t p l i, filter (good t) (attributes_of p i l) = [].
Proof. intros t p l. induction l as [|x l IH]; intros i; [reflexivity|]. cbn [attributes_of filter]. unfold good at 1. cbn [attb negb]. rewrite andb_false_r. apply IH. Qed.
Lemma kids_attb : forall p, kids_only p -> attb p = false.
Proof. intros [|[]]; cbn; auto; contradiction. Qed.
Lemma good_order : forall t k p, shape_ok k -> kids_only p -> subtree t p = Some k -> filter (good t) (order k p) = if continues t p then [] else cn k p.
Proof.
  intros t. induction k as [i a k _ IH] using xtree_ind2. intros p SH K U. pose proof SH as SH0. apply shape_eq in SH. destruct SH as (_ & _ & _ & _ & F). rewrite order_eq. cbn [filter]. rewrite filter_app, filter_att. cbn [app].
  rewrite (good_orders t (Xt i a k) p k 0 K U); [|auto|rewrite Forall_forall in *; intros x X p' K' U'; apply IH; auto].
  unfold good. rewrite (kids_attb _ K). cbn [negb]. rewrite andb_true_r. destruct (continues t p) eqn:C; cbn [negb]; [|rewrite cn_eq; reflexivity].
  unfold continues, is_text in C. rewrite U in C. apply andb_prop in C. destruct C as (C & _). destruct (text_leaf _ SH0 C) as (i' & E). injection E as _ _ ->. reflexivity.
Qed.
Lemma good_orders' : forall t w p l i, shape_ok t -> kids_only p -> subtree t p = Some w -> (forall j k, nth_error l j = Some k -> nth_error (t_kids w) (i + j) = Some k) ->
  filter (good t) (orders p i l) = cns p i (flag_at w i) l.
Proof.
  intros t w p l i SH K W N. apply good_orders; auto. rewrite Forall_forall. intros k IK p' K' U. apply good_order; auto. eapply shape_sub; eauto.
Qed.
Lemma nth_skipn : forall {A} (l : list A) i j, nth_error (skipn i l) j = nth_error l (i + j).
Proof. intros A l. induction l as [|x l IH]; intros [|i] j; cbn; auto; destruct j; reflexivity. Qed.
Lemma nth_firstn : forall {A} (l : list A) i j x, nth_error (firstn i l) j = Some x -> nth_error l j = Some x /\ (j < i)%nat.
Proof. intros A l. induction l as [|y l IH]; intros [|i] [|j] x E; try discriminate; cbn in *; [split; [exact E|lia]|]. destruct (IH _ _ _ E). split; [assumption|lia]. Qed.
Fixpoint fp (t : xtree) (p : path) : list path :=
  match p with
  | Kid i :: q => match subtree t q with Some w => cns q (S i) (flag_at w (S i)) (skipn (S i) (t_kids w)) ++ fp t q | None => [] end
  | _ => []
  end.
Lemma filter_after : forall t p, shape_ok t -> kids_only p -> filter (good t) (after t p) = fp t p.
Proof.
  intros t p SH. induction p as [|s p IH]; intros K; [reflexivity|]. destruct s as [i| |]; try contradiction. cbn [after fp]. destruct (subtree t p) as [[iw a k]|] eqn:W; [|reflexivity]. rewrite filter_app. f_equal; [|apply IH; exact K].
  change k with (t_kids (Xt iw a k)). apply good_orders'; auto. intros j x. rewrite nth_skipn. auto.
Qed.

(** * Walking forwards *)
Fixpoint chain (nxt : path -> moved) (l : list path) (e : moved) : Prop :=
  match l with [] => True | x :: r => nxt x = match r with [] => e | y :: _ => To (Some y) end /\ chain nxt r e end.
Lemma chain_app : forall nxt l1 l2 e, chain nxt l1 (match l2 with [] => e | y :: _ => To (Some y) end) -> chain nxt l2 e -> chain nxt (l1 ++ l2) e.
Proof.
  intros nxt l1 l2 e. induction l1 as [|x [|y l1] IH]; intros C1 C2; [exact C2| |].
  - destruct C1 as (C1 & _). split; [exact C1|exact C2].
  - destruct C1 as (C0 & C1). split; [exact C0|]. apply IH; auto.
Qed.
Lemma up_kid : forall t o j p, up t o (Kid j :: p) = if opt_path_eqb (Some (Kid j :: p)) o then To None else match next_sibling t (Kid j :: p) with Some n => To (Some n) | None => up t o p end.
Proof. reflexivity. Qed.
Section Walking.
  Context (t : xtree) (SH : shape_ok t) (origin : path) (nxt : path -> moved).
  Definition out (p : path) : moved :=
    match find_next_sibling t p with Some n => To (Some n) | None => match p with _ :: q => up t (Some origin) q | [] => Undefined end end.
  Context (H : forall i p k, kids_only p -> subtree t (Kid i :: p) = Some k -> (length origin <= length p)%nat ->
    nxt (Kid i :: p) = match first_child t (Kid i :: p) with Some n => To (Some n) | None => out (Kid i :: p) end).
  Lemma out_next : forall q w i k, subtree t q = Some w -> nth_error (t_kids w) i = Some k ->
    out (Kid i :: q) = match cns q (S i) (tree_is_text k) (skipn (S i) (t_kids w)) with [] => up t (Some origin) q | y :: _ => To (Some y) end.
  Proof.
    intros q w i k W K. unfold out. rewrite (find_next _ _ _ _ _ W K), <- hd_cns. destruct (cns q (S i) (tree_is_text k) (skipn (S i) (t_kids w))); reflexivity.
  Qed.
  Lemma chain_list : forall p w l i prev, kids_only p -> subtree t p = Some w -> l = skipn i (t_kids w) -> (length origin <= length p)%nat ->
    Forall (fun k => forall j p, kids_only p -> subtree t (Kid j :: p) = Some k -> (length origin <= length p)%nat -> chain nxt (cn k (Kid j :: p)) (out (Kid j :: p))) l ->
    chain nxt (cns p i prev l) (up t (Some origin) p).
  Proof.
    intros p w l. induction l as [|k l IH]; intros i prev K W E L F; [exact I|]. inversion F as [|? ? F1 F2]; subst.
    assert (NK : nth_error (t_kids w) i = Some k) by (rewrite <- (Nat.add_0_r i), <- nth_skipn, <- E; reflexivity).
    assert (El : l = skipn (S i) (t_kids w)). { destruct (nth_split3 _ _ _ NK) as (E1 & L1). rewrite E1 in E. rewrite skipn_app, L1, Nat.sub_diag, skipn_all2 in E by lia. cbn [app skipn] in E. injection E as E. exact E. }
    specialize (IH (S i) (tree_is_text k) K W El L F2). cbn [cns]. destruct (prev && tree_is_text k); [exact IH|]. apply chain_app; [|exact IH].
    rewrite El at 1. rewrite <- (out_next _ _ _ _ W NK). apply F1; auto. cbn [subtree]. rewrite W. exact NK.
  Qed.
  Lemma chain_node : forall k j p, kids_only p -> subtree t (Kid j :: p) = Some k -> (length origin <= length p)%nat -> chain nxt (cn k (Kid j :: p)) (out (Kid j :: p)).
  Proof.
    induction k as [i a k _ IH] using xtree_ind2. intros j p K U L. rewrite cn_eq. pose proof (shape_sub t (Kid j :: p) _ SH K U) as SK. set (P := Kid j :: p) in *.
    assert (C : chain nxt (cns P 0 false k) (up t (Some origin) P)) by (apply (chain_list P (Xt i a k)); auto; cbn [length P]; lia).
    split.
    - unfold P. rewrite (H j p _ K U L). fold P. unfold first_child. rewrite U. destruct k as [|k0 k]; [reflexivity|]. cbn [cns andb]. destruct k0 as [i0 a0 k0]. rewrite cn_eq. reflexivity.
    - destruct k as [|k0 k]; [exact I|]. replace (out P) with (up t (Some origin) P); [exact C|].
      unfold P. unfold out. unfold find_next_sibling, is_text. fold P. rewrite U. rewrite (notext_kids _ SK) by discriminate. cbn [negb].
      assert (E : opt_path_eqb (Some (Kid j :: p)) (Some origin) = false). { destruct (opt_path_eqb (Some (Kid j :: p)) (Some origin)) eqn:E; [|reflexivity]. cbn [opt_path_eqb] in E. apply path_eqb_ok in E. exfalso. rewrite <- E in L. cbn in L. lia. }
      unfold P. rewrite up_kid, E. reflexivity.
  Qed.
  Lemma chain_kids : forall p w i prev, kids_only p -> subtree t p = Some w -> (length origin <= length p)%nat -> chain nxt (cns p i prev (skipn i (t_kids w))) (up t (Some origin) p).
  Proof. intros p w i prev K W L. eapply chain_list; eauto. rewrite Forall_forall. intros. apply chain_node; auto. Qed.
End Walking.
Lemma up_self : forall t p, up t (Some p) p = To None.
Proof. intros t p. assert (E : path_eqb p p = true) by (apply path_eqb_ok; reflexivity). destruct p; cbn [up opt_path_eqb]; rewrite E; reflexivity. Qed.
Lemma run_chain : forall t a o anc lft nxt, (forall w c, w_axis w = a -> w_origin w = o -> advance t w c = at_ w (nxt c)) ->
  forall l fuel, chain nxt l (To None) -> (length l <= fuel)%nat -> run_walker fuel t (Some (Walker a o (hd_error l) anc lft)) = Nodes l.
Proof.
  intros t a o anc lft nxt AD. induction l as [|x l IH]; intros fuel C L; [destruct fuel; reflexivity|]. destruct fuel as [|f]; [cbn in L; lia|]. cbn [run_walker w_current hd_error]. rewrite AD by reflexivity.
  destruct C as (C1 & C2). rewrite C1. specialize (IH f C2 ltac:(cbn in L; lia)). destruct l as [|y l]; unfold at_; cbn [w_axis w_origin w_ancestor w_left]; cbn [hd_error] in IH; rewrite IH; reflexivity.
Qed.
