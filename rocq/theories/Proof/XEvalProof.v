From Coq Require Import SpecFloat Sorted Permutation.
From Verif.Model Require Import Base Containers Text XNode XAxis XNodeSet XCompare XString XStep XEval.
From Verif.Spec Require Import TextSpec XOrder XAxisSpec XNodeSetSpec XCompareSpec XNumberSpec XStringSpec XStepSpec XEvalSpec.
From Verif.Proof Require Import Tac ContainersProof TextProof XOrderProof XAxisProof XAxisWalks XAxisSimple XNodeSetProof XCompareProof XNumberProof XIntProof XStringProof XStepProof.

(** * Induction over expressions *)
Section Induction.
  Variable P : expr -> Prop.
  Definition step_all (s : step_of expr) : Prop := match s with AxisStep _ _ qs => Forall P qs | FilterStep e qs => P e /\ Forall P qs end.
  Hypothesis HN : forall n, P (ENumber n).
  Hypothesis HL : forall s, P (ELiteral s).
  Hypothesis HV : forall u n, P (EVariable u n).
  Hypothesis HO : forall a b, P a -> P b -> P (EOr a b).
  Hypothesis HA : forall a b, P a -> P b -> P (EAnd a b).
  Hypothesis HR : forall o a b, P a -> P b -> P (ERel o a b).
  Hypothesis HM : forall o a b, P a -> P b -> P (EArith o a b).
  Hypothesis HG : forall a, P a -> P (ENegate a).
  Hypothesis HU : forall a b, P a -> P b -> P (EUnion a b).
  Hypothesis HC : forall g args, Forall P args -> P (ECall g args).
  Hypothesis HP : forall b steps, Forall step_all steps -> P (EPath b steps).
  Fixpoint expr_ind2 (e : expr) : P e :=
    let all := fix all (l : list expr) : Forall P l := match l with [] => Forall_nil P | x :: r => Forall_cons x (expr_ind2 x) (all r) end in
    match e with
    | ENumber n => HN n
    | ELiteral s => HL s
    | EVariable u n => HV u n
    | EOr a b => HO a b (expr_ind2 a) (expr_ind2 b)
    | EAnd a b => HA a b (expr_ind2 a) (expr_ind2 b)
    | ERel o a b => HR o a b (expr_ind2 a) (expr_ind2 b)
    | EArith o a b => HM o a b (expr_ind2 a) (expr_ind2 b)
    | ENegate a => HG a (expr_ind2 a)
    | EUnion a b => HU a b (expr_ind2 a) (expr_ind2 b)
    | ECall g args => HC g args (all args)
    | EPath b steps => HP b steps ((fix go (l : list (step_of expr)) : Forall step_all l :=
        match l with
        | [] => Forall_nil step_all
        | s :: r => Forall_cons s (match s return step_all s with AxisStep _ _ qs => all qs | FilterStep e qs => conj (expr_ind2 e) (all qs) end) (go r)
        end) steps)
    end.
End Induction.

(** * Numbers *)
Lemma finite_den : forall s m e, numerator (S754_finite s m e) = sg s * (Z.pos m * up e) /\ denominator (S754_finite s m e) = down e.
Proof. intros s m e. cbn [numerator denominator]. unfold sg, up, down. split; [ring|reflexivity]. Qed.
Lemma floor_ok : forall n, is_floor n (XNumber.floor n).
Proof.
  intros n. split; [|destruct n as [s|s| |s m e]; intros N; try reflexivity; destruct N; exact Logic.I]. intros D F. destruct n as [s|s| |s m e]; try contradiction.
  - exists 0. cbn. repeat split; lia.
  - pose proof (den_pos (S754_finite s m e)) as P. destruct (finite_den s m e) as (EN & ED). rewrite EN, ED in *. apply valid_double in D. destruct (valid_bounds m e D) as (M & _). set (N := sg s * (Z.pos m * up e)) in *. exists (N / down e).
    pose proof (Z.mul_div_le N (down e) P) as A. pose proof (Z.mul_succ_div_gt N (down e) P) as B. assert (H : N / down e * down e <= N < (N / down e + 1) * down e) by nia. split; [exact H|]. apply floor_spec; [exact M|exact H].
Qed.
Lemma round_opp : forall s m e, binary_round 53 1024 (negb s) m e = SFopp (binary_round 53 1024 s m e).
Proof.
  intros s m e. unfold binary_round. destruct (shl_align m e _) as [mz ez]. unfold binary_round_aux. destruct (shr_fexp 53 1024 (Z.pos mz) ez loc_Exact) as [r1 e1].
  destruct (shr_fexp 53 1024 (round_nearest_even (shr_m r1) (loc_of_shr_record r1)) e1 loc_Exact) as [r2 e2]. destruct (shr_m r2); try reflexivity. destruct (e2 <=? 1024 - 53); reflexivity.
Qed.
Lemma ceil_floor : forall s m e, XNumber.ceil (S754_finite s m e) = SFopp (XNumber.floor (S754_finite (negb s) m e)).
Proof.
  intros s m e. unfold XNumber.ceil, XNumber.floor. destruct (Z.leb_spec 0 e) as [L|L]; [cbn; rewrite negb_involutive; reflexivity|].
  replace (if negb s then - Z.pos m else Z.pos m) with (if s then Z.pos m else - Z.pos m) by (destruct s; reflexivity). set (z := (if s then Z.pos m else - Z.pos m) / 2 ^ (- e)). clearbody z. unfold with_sign. destruct (Z.eqb_spec z 0) as [->|N]; [cbn; rewrite negb_involutive; reflexivity|].
  destruct (Z.eqb_spec (- z) 0); [lia|]. destruct z as [|p|p]; [contradiction| |]; unfold of_Z; cbn [Z.opp binary_normalize]; [exact (round_opp false p 0)|exact (round_opp true p 0)].
Qed.
Lemma opp_integer : forall v k, is_integer v k -> is_integer (SFopp v) (- k).
Proof. intros [s|s| |s m e] k (F & E); try contradiction; split; try exact Logic.I; cbn [SFopp numerator denominator] in *; [lia|]. destruct s; cbn [negb]; nia. Qed.
Lemma ceil_ok : forall n, is_ceiling n (XNumber.ceil n).
Proof.
  intros n. split; [|destruct n as [s|s| |s m e]; intros N; try reflexivity; destruct N; exact Logic.I]. intros D F. destruct n as [s|s| |s m e]; try contradiction.
  - exists 0. cbn. repeat split; lia.
  - assert (D' : double (S754_finite (negb s) m e)) by (apply valid_double; apply (valid_double s); exact D). destruct (proj1 (floor_ok (S754_finite (negb s) m e)) D' Logic.I) as (k & B & IK). exists (- k). rewrite ceil_floor. split; [|apply opp_integer; exact IK].
    destruct (finite_den s m e) as (EN & ED). destruct (finite_den (negb s) m e) as (EN' & ED'). rewrite EN, ED. rewrite EN', ED' in B. unfold sg in *. destruct s; cbn [negb] in *; nia.
Qed.
Lemma round_ok : forall n, is_round n (round_number n).
Proof.
  intros n. split; [intros D F U; destruct (round_lemma_all n D F U) as (j & R & W & _); exists j; auto|]. intros N. destruct n as [s|[]| |s m e]; try reflexivity; destruct N; exact Logic.I.
Qed.
Lemma substring_nan : forall value a b, substring value S754_nan b = Text [] /\ substring value a (Some S754_nan) = Text [].
Proof.
  intros [|c value] a b; split; try reflexivity; cbn [substring]; change (round_number S754_nan) with S754_nan.
  change (fsub S754_nan one) with S754_nan. destruct (round_number _); reflexivity.
Qed.
Lemma modulus_calculates : forall a b r, modulus a b = Some r -> calculates Mod a b r.
Proof.
  intros a b r E. split.
  - intros [-> | ->]; unfold modulus in E; cbn [is_nan orb] in E; [congruence|]. rewrite Bool.orb_true_r in E. congruence.
  - intros x y IX IY BX BY. assert (N : ~ (x = -9223372036854775808 /\ y = -1)).
    { intros (-> & ->). destruct (is_integer_long a _ IX BX) as (LA & NA). destruct (is_integer_long b _ IY ltac:(lia)) as (LB & NB). unfold modulus in E. rewrite NA, NB, LA, LB in E. discriminate. }
    destruct (modulus_lemma a b x y IX IY BX BY N) as (r' & E' & A & B). rewrite E in E'. injection E' as <-. auto.
Qed.
Lemma substring_ok : forall s a b t, substring s a b = Text t -> is_substring s a b t.
Proof.
  intros s a b t E. split.
  - intros [-> | ->]; [rewrite (proj1 (substring_nan s zero b)) in E|rewrite (proj2 (substring_nan s a None)) in E]; congruence.
  - intros L ka (DA & FA & UA & RA & BA) LK. split.
    + intros ->. destruct (substring_two s a None ka L (rounds_whole a ka DA FA UA RA) (or_introl eq_refl) ltac:(lia) LK) as (t' & E' & P). rewrite E in E'. injection E' as <-. exact P.
    + intros n kb -> (DB & FB & UB_ & RB & BB). destruct (substring_three s a n ka kb L (rounds_whole a ka DA FA UA RA) (rounds_whole n kb DB FB UB_ RB) ltac:(lia) BB (or_intror LK)) as (t' & E' & P). rewrite E in E'. injection E' as <-. exact P.
Qed.

(** * Values *)
Lemma alike_set : forall v w, alike v w -> forall s, v = VSet s -> exists r, w = VSet r /\ forall x, In x (s_nodes s) <-> In x (s_nodes r).
Proof. intros v w A s ->. destruct w as [|?|?|r]; cbn in A; try discriminate. exists r. auto. Qed.
Lemma alike_plain : forall v w, alike v w -> (forall s, v <> VSet s) -> v = w.
Proof. intros v w A N. destruct v as [b|n|s|s]; try (destruct (N s eq_refl)); destruct w; cbn in A; congruence. Qed.
Lemma first_same : forall f s r x, (forall x, In x (s_nodes s) <-> In x (s_nodes r)) -> first f s x -> first f r x.
Proof. intros f s r x H (A & B). split; [apply H; exact A|]. intros y Y. apply B. apply H. exact Y. Qed.
Lemma alike_text : forall c f v w t, alike v w -> as_text c f v t -> as_text c f w t.
Proof.
  intros c f v w t A T. destruct v as [b|n|s|s]; try (rewrite <- (alike_plain _ _ A); [exact T|discriminate]). destruct (alike_set _ _ A s eq_refl) as (r & -> & H). cbn [as_text] in *. destruct T as [(E & ->)|(x & F & S)].
  - left. split; [|reflexivity]. apply (same_empty _ _ H). exact E.
  - right. exists x. split; [apply (first_same f s r x H F)|exact S].
Qed.
Lemma alike_num : forall c f v w n, alike v w -> as_num c f v n -> as_num c f w n.
Proof.
  intros c f v w n A T. destruct v as [b|m|s|s]; try (rewrite <- (alike_plain _ _ A); [exact T|discriminate]). pose proof A as A0. destruct (alike_set _ _ A s eq_refl) as (r & -> & H). cbn [as_num] in *. destruct T as (t & T & E). exists t. split; [|exact E]. exact (alike_text c f _ _ t A0 T).
Qed.
Lemma alike_sym : forall v w, alike v w -> alike w v.
Proof. intros [b|n|s|s] [b'|n'|s'|s'] A; cbn in *; try congruence. intros x. symmetry. apply A. Qed.
Lemma settled_same : forall op v v' w w', alike v v' -> alike w w' -> settled op v' w' -> settled op v w.
Proof.
  intros op v v' w w' A B. assert (E : forall a b, alike (VSet a) (VSet b) -> s_nodes b <> [] -> s_nodes a <> []) by (intros a b H N1 N2; apply N1; apply (same_empty _ _ H); exact N2).
  destruct v as [b|n|s|s], v' as [b'|n'|s'|s']; try discriminate A; destruct w as [c|m|r|r], w' as [c'|m'|r'|r']; try discriminate B; cbn [settled]; auto. intros [H|(H1 & H2)]; [auto|right; split; eauto].
Qed.
Lemma exists_same : forall (l m : list xnode) (P Q : xnode -> Prop), (forall x, In x l <-> In x m) -> (forall x, In x l -> (P x <-> Q x)) -> (exists x, In x l /\ P x) <-> (exists x, In x m /\ Q x).
Proof. intros l m P Q H E. split; intros (x & I & X); exists x; (split; [apply H; exact I|]); apply E; try exact X; try exact I; apply H; exact I. Qed.
Lemma pairs_same : forall (l m l' m' : list xnode) (P Q : xnode -> xnode -> Prop), (forall x, In x l <-> In x m) -> (forall x, In x l' <-> In x m') -> (forall x y, In x l -> In y l' -> (P x y <-> Q x y)) ->
  (exists x y, In x l /\ In y l' /\ P x y) <-> (exists x y, In x m /\ In y m' /\ Q x y).
Proof. intros l m l' m' P Q H H' E. split; intros (x & y & I & J & X); exists x, y; (split; [apply H; exact I|]); (split; [apply H'; exact J|]); apply E; auto; [apply H|apply H']; auto. Qed.
(** Comparing with readers that agree on the nodes of the sets. *)
Definition members (v : value) : list xnode := match v with VSet s => s_nodes s | _ => [] end.
Lemma compares_same : forall r r' op v v' w w', num r = num r' -> (forall x, In x (members v) \/ In x (members w) -> text_of r x = text_of r' x) -> alike v v' -> alike w w' ->
  (compares r op v w <-> compares r' op v' w').
Proof.
  intros r r' op v v' w w' EN ET A B. assert (ES : forall a b, strings r op a b <-> strings r' op a b) by (intros a b; unfold strings; rewrite EN; reflexivity).
  assert (NU : forall v, number r v = number r' v) by (intros []; cbn [number]; rewrite ?EN; reflexivity).
  pose proof (alike_truth _ _ A) as TA. pose proof (alike_truth _ _ B) as TB.
  destruct v as [b|n|s|s], v' as [b'|n'|s'|s']; try discriminate A; try (injection A as <-); destruct w as [c|m|t|t], w' as [c'|m'|t'|t']; try discriminate B; try (injection B as <-);
    unfold compares; rewrite ?NU; try reflexivity; try apply ES; cbn [alike members] in *; try (rewrite ?TA, ?TB; reflexivity).
  - apply exists_same; [exact B|]. intros x I. rewrite EN, (ET x (or_intror I)). reflexivity.
  - apply exists_same; [exact B|]. intros x I. rewrite (ET x (or_intror I)). apply ES.
  - apply exists_same; [exact A|]. intros x I. rewrite EN, (ET x (or_introl I)). reflexivity.
  - apply exists_same; [exact A|]. intros x I. rewrite (ET x (or_introl I)). apply ES.
  - apply pairs_same; [exact A|exact B|]. intros x y I J. rewrite (ET x (or_introl I)), (ET y (or_intror J)). apply ES.
Qed.
Lemma lead_leading : forall l, lead l = leading_texts l.
Proof. induction l as [|k l IH]; [reflexivity|]. cbn [lead leading_texts]. rewrite IH. destruct (tree_is_text k) eqn:T. - rewrite (text_texts k T). unfold tree_is_text in T. destruct (t_kind k); try discriminate; reflexivity. - unfold tree_is_text in T. destruct (t_kind k); try discriminate; reflexivity. Qed.
Lemma no_nul_sub : forall t x u, no_nul t -> kids_only x -> subtree t x = Some u -> no_nul u.
Proof.
  intros t x. induction x as [|[j| |] x IH]; intros u NN K U; try contradiction; [cbn in U; congruence|]. cbn [subtree] in U. destruct (subtree t x) as [w|]; [|discriminate]. specialize (IH w NN K eq_refl). destruct w as [iw a k]. apply no_nul_eq in IH. destruct IH as (_ & F). rewrite Forall_forall in F. apply F. eapply nth_error_In. exact U.
Qed.
Lemma text_at : forall t p u, shape_ok t -> no_nul t -> t_kind t = Xdocument -> In p (order t []) -> subtree t p = Some u -> tree_is_text u = true ->
  Some (text_value t p) = match p with Kid i :: q => match subtree t q with Some w => Some (leading_texts (skipn i (t_kids w))) | None => None end | _ => None end.
Proof.
  intros t p u SH NN TK I U T. apply in_order in I. destruct I as [(K & _)|(i & e & -> & K & v & V)].
  - destruct p as [|[i| |] q]; try contradiction; [cbn in U; injection U as <-; unfold tree_is_text in T; rewrite TK in T; discriminate|]. cbn [subtree text_value] in *. destruct (subtree t q) as [w|] eqn:W; [|discriminate]. f_equal.
    pose proof (no_nul_sub t q w NN K W) as NW. destruct w as [iw aw kw]. apply no_nul_eq in NW. destruct NW as (_ & NW). cbn [t_kids] in *. destruct (nth_split3 _ _ _ U) as (E1 & L1).
    assert (E : skipn i kw = u :: skipn (S i) kw). { rewrite E1 at 1. rewrite skipn_app, L1, Nat.sub_diag, skipn_all2 by lia. reflexivity. }
    rewrite E, <- lead_leading. apply (proj1 (run_lead _ u T ltac:(rewrite <- E; apply Forall_forall; rewrite Forall_forall in NW; intros y Y; apply NW; rewrite <- (firstn_skipn i kw); apply in_or_app; right; exact Y))).
  - exfalso. cbn [subtree] in U. destruct (subtree t e) as [w|] eqn:W; [|discriminate]. pose proof (shape_sub t e w SH K W) as SW. destruct w as [iw aw kw]. apply shape_eq in SW. destruct SW as (_ & _ & FA & _). rewrite Forall_forall in FA. cbn [t_attrs] in U. destruct (FA u (nth_error_In _ _ U)) as (KA & _). unfold tree_is_text in T. rewrite KA in T. discriminate.
Qed.
Lemma string_at_ok : forall f x, proper (f_tree f (fst x)) -> In (snd x) (order (f_tree f (fst x)) []) -> string_value (f_tree f (fst x)) (snd x) = string_at f x.
Proof.
  intros f x ((TK & SH & SM & SZ & NK & TX) & NN & PF) I. unfold string_at. set (t := f_tree f (fst x)) in *. set (p := snd x) in *. clearbody t p. destruct (subtree t p) as [u|] eqn:U; [|unfold string_value; rewrite U; reflexivity].
  assert (RK : t_kind t <> Xattribute) by (rewrite TK; discriminate). pose proof (string_value_lemma t p u SH RK NN I U) as SV. pose proof (NK p u I U) as NS. pose proof I as I0. apply in_order in I0. destruct (t_kind u) eqn:KU; try (apply SV; exact Logic.I); try (destruct NS; reflexivity); unfold string_value; rewrite U, KU; try reflexivity.
  - apply (text_at t p u); auto. unfold tree_is_text; rewrite KU; reflexivity.
  - apply (text_at t p u); auto. unfold tree_is_text; rewrite KU; reflexivity.
Qed.

Lemma Forall2_length : forall {A B} (R : A -> B -> Prop) l m, Forall2 R l m -> length l = length m.
Proof. intros A B R l m H. induction H; cbn; congruence. Qed.

(** * Expressions *)
Section Document.
  Variables (k : env) (d : nat).
  Let f := e_forest k.
  Let ss := e_sort k.
  Let t := f_tree f d.
  Let c := Conversions (e_num k) (e_show k).
  Let vars : str -> str -> value -> Prop := fun uri name v => e_vars k uri name = Got v.
  Hypothesis SS : sorts ss.
  Hypothesis DOC : documents f.
  Hypothesis OWN : f_doc f d = d.
  Hypothesis PR : proper t.
  Hypothesis VARS : forall uri name v, e_vars k uri name = Got v -> usable ss f d v.
  Let WD : whole_document t := proj1 PR.
  Lemma text_agrees : forall b x, fine f d b x -> node_text k x = string_at f x.
  Proof. intros b x (D & I & _). unfold node_text. fold f. apply string_at_ok; rewrite D; [exact PR|]. apply nodes_in in I. apply I. Qed.
  Definition nodup_value (v : value) : Prop := match v with VSet s => NoDup (s_nodes s) | _ => True end.
  (** An expression that does what a meaning says, with sets that are good. *)
  Definition esound (b a : bool) (e : expression) (m : meaning) : Prop := forall x position last v, fine f d b x -> e x position last = Got v ->
    good_value f d a v /\ nodup_value v /\ exists w, m x position last w /\ alike v w.
  Lemma esound_sound : forall b a e m, esound b a e m -> sound f d b a e m.
  Proof. intros b a e m E x p l v F V. destruct (E x p l v F V) as (A & _ & B). auto. Qed.
  Lemma good_more : forall a v, good_value f d a v -> good_value f d true v.
  Proof. intros a [| | |s]; cbn; auto. intros (G & F). split; [exact G|]. eapply Forall_impl; [|exact F]. intros x. apply fine_more. Qed.
  Lemma esound_more : forall b a e m, esound b a e m -> esound b true e m.
  Proof. intros b a e m E x p l v F V. destruct (E x p l v F V) as (A & B). split; [exact (good_more a v A)|exact B]. Qed.
  Lemma to_text_ok : forall v s, good_value f d true v -> to_text k v = Got s -> as_text c f v s.
  Proof.
    intros v s G E. destruct v as [b|n|r|r]; cbn in E; try (injection E as <-; reflexivity). unfold set_text, set_as_string in E. fold f ss in E. cbn [as_text]. destruct (s_nodes r) as [|y l] eqn:EN; [cbn in E; injection E as <-; auto|].
    destruct G as (GS & FI). destruct (top_lemma ss f r SS DOC GS) as (x & T & I & O); [rewrite EN; discriminate|]. rewrite T in E. destruct x as [dx px]. right. exists (dx, px). split; [split; [exact I|exact O]|]. rewrite Forall_forall in FI. rewrite <- (text_agrees true _ (FI _ I)). unfold node_text. fold f. cbn [fst snd]. destruct (string_value (f_tree f dx) px) as [s'|]; cbn in E; congruence.
  Qed.
  Lemma to_number_ok : forall v n, good_value f d true v -> to_number k v = Got n -> as_num c f v n.
  Proof.
    intros v n G E. destruct v as [b|m|r|r]; cbn [to_number as_number] in E; try (injection E as <-; reflexivity).
    - injection E as <-. exists r. split; reflexivity.
    - destruct (set_text k r) as [s| | |] eqn:ES; cbn [andthen] in E; try discriminate. injection E as <-. exists s. split; [|reflexivity]. apply (to_text_ok (VSet r) s G). exact ES.
  Qed.
  Lemma compared_ok : forall op v w v' w' r, good_value f d true v -> good_value f d true w -> alike v v' -> alike w w' -> compared k op v w = Got r ->
    exists b, r = VBool b /\ (settled op v' w' -> (b = true <-> compares (reading c f) op v' w')).
  Proof.
    intros op v w v' w' r GV GW AV AW E. unfold compared in E. destruct (has_text k v && has_text k w) eqn:HT; [|discriminate]. destruct (compare_values _ _ op v w) as [b|] eqn:CV; [|discriminate]. injection E as <-. exists b. split; [reflexivity|]. intros ST.
    destruct (compare_lemma (reader_of k) (fun s => match set_text k s with Got t => t | _ => [] end) op v w (settled_same op v v' w w' AV AW ST)) as (b' & E' & IFF). rewrite CV in E'. injection E' as <-. rewrite IFF. apply compares_same; auto.
    intros x I. assert (FX : fine f d true x). { destruct I as [I|I]; [destruct v as [| | |s]|destruct w as [| | |s]]; try contradiction; [destruct GV as (_ & FI)|destruct GW as (_ & FI)]; rewrite Forall_forall in FI; apply FI; exact I. }
    cbn [reader_of reading text_of]. rewrite (text_agrees true x FX). reflexivity.
  Qed.
  Lemma sum_ok : forall l z n, Forall (fine f d true) l -> sum_nodes k l z = Got n -> exists ts, Forall2 (fun y s => string_at f y = Some s) l ts /\ n = fold_left fadd (map (e_num k) ts) z.
  Proof.
    induction l as [|x l IH]; intros z n F E; cbn [sum_nodes] in E; [injection E as <-; exists []; split; [constructor|reflexivity]|]. inversion F as [|? ? F1 F2]; subst. destruct (node_text k x) as [s|] eqn:N; cbn [from_option andthen] in E; [|discriminate].
    destruct (IH _ _ F2 E) as (ts & A & B). exists (s :: ts). split; [constructor; [rewrite <- (text_agrees true x F1); exact N|exact A]|exact B].
  Qed.
  Lemma text_ok : forall b e m x p l s, esound b true e m -> fine f d b x -> andthen (e x p l) (to_text k) = Got s -> exists w, m x p l w /\ as_text c f w s.
  Proof.
    intros b e m x p l s S F E. destruct (e x p l) as [v| | |] eqn:EV; cbn [andthen] in E; try discriminate. destruct (S x p l v F EV) as (G & _ & w & M & A). exists w. split; [exact M|]. eapply alike_text; [exact A|]. apply to_text_ok; assumption.
  Qed.
  Lemma number_ok : forall b e m x p l n, esound b true e m -> fine f d b x -> andthen (e x p l) (to_number k) = Got n -> exists w, m x p l w /\ as_num c f w n.
  Proof.
    intros b e m x p l s S F E. destruct (e x p l) as [v| | |] eqn:EV; cbn [andthen] in E; try discriminate. destruct (S x p l v F EV) as (G & _ & w & M & A). exists w. split; [exact M|]. eapply alike_num; [exact A|]. apply to_number_ok; assumption.
  Qed.
  Lemma texts_ok : forall b es ms, Forall2 (esound b true) es ms -> forall x p l ts, fine f d b x -> text_args k es x p l = Got ts -> exists vs, Forall2 (fun (m : meaning) w => m x p l w) ms vs /\ Forall2 (as_text c f) vs ts.
  Proof.
    intros b es ms H. induction H as [|e m es ms S H IH]; intros x p l ts F E; cbn [text_args] in E; [injection E as <-; exists []; split; constructor|].
    destruct (andthen (e x p l) (to_text k)) as [s| | |] eqn:ES; cbn [andthen] in E; try discriminate. destruct (text_args k es x p l) as [r| | |] eqn:ER; cbn [andthen] in E; try discriminate. injection E as <-. destruct (text_ok b e m x p l s S F ES) as (w & M & A). destruct (IH x p l r F ER) as (vs & MS & AS). exists (w :: vs). split; constructor; assumption.
  Qed.
  Lemma text_arg_ok : forall b es ms x p l s, Forall2 (esound b true) es ms -> (length es <= 1)%nat -> fine f d b x -> text_arg k es x p l = Got s -> exists vs, Forall2 (fun (m : meaning) w => m x p l w) ms vs /\ text_or_here c f x vs s.
  Proof.
    intros b es ms x p l s H L F E. destruct H as [|e m es ms S H]; cbn [text_arg] in E.
    - exists []. split; [constructor|]. cbn [text_or_here]. rewrite <- (text_agrees b x F). destruct (node_text k x); cbn in E; congruence.
    - destruct H; [|cbn in L; lia]. destruct (text_ok b e m x p l s S F E) as (w & M & A). exists [w]. split; [repeat constructor; exact M|exact A].
  Qed.
  Lemma named_ok : forall (g : xinfo -> str) (has : xinfo -> str -> Prop), (forall y u, In y (order t []) -> subtree t y = Some u -> has (t_info u) (g (t_info u))) ->
    forall b es ms x p l v, Forall2 (esound b true) es ms -> (length es <= 1)%nat -> fine f d b x -> andthen (node_arg k es x p l) (named k g) = Got v ->
    (forall s, v <> VSet s) /\ exists vs, Forall2 (fun (m : meaning) w => m x p l w) ms vs /\ about f has x vs v.
  Proof.
    intros g has GH b es ms x p l v H L F E. assert (NAMED : forall y v, fine f d true y -> named k g (Some y) = Got v -> exists s, v = VStr s /\ name_of f has y s).
    { intros y v' (D & I & _) E'. cbn [named] in E'. fold f in E'. rewrite D in E'. fold t in E'. destruct (subtree t (snd y)) as [u|] eqn:U; [|discriminate]. injection E' as <-. eexists. split; [reflexivity|]. exists u. rewrite D. split; [exact U|]. apply (GH (snd y)); [apply nodes_in in I; apply I|exact U]. }
    destruct H as [|e m es ms S H]; cbn [node_arg] in E.
    - cbn [andthen] in E. destruct (NAMED x v (fine_more f d b x F) E) as (s & -> & N). split; [discriminate|]. exists []. split; [constructor|]. exists s. split; [reflexivity|exact N].
    - destruct H; [|cbn in L; lia]. destruct (e x p l) as [w| | |] eqn:EW; cbn [andthen] in E; try discriminate. destruct (S x p l w F EW) as (G & _ & w' & M & A).
      destruct w as [bw|nw|sw|sw].
      1-3: cbn [as_set new_set s_nodes andthen named] in E; injection E as <-; (split; [discriminate|]); exists [w']; (split; [repeat constructor; exact M|]); rewrite <- (alike_plain _ _ A) by discriminate; exists []; split; [reflexivity|exact Logic.I].
      destruct (alike_set _ _ A sw eq_refl) as (r & -> & SAME). cbn [as_set] in E. fold ss in E. destruct (s_nodes sw) as [|y0 l0] eqn:EN.
      + cbn [andthen named] in E. injection E as <-. split; [discriminate|]. exists [VSet r]. split; [repeat constructor; exact M|]. exists []. split; [reflexivity|]. left. split; [|reflexivity]. apply (same_empty _ _ SAME). reflexivity.
      + destruct G as (GS & FI). destruct (top_lemma ss f sw SS DOC GS) as (y & T & I & O); [rewrite EN; discriminate|]. fold f in E. rewrite T in E. cbn [andthen] in E. rewrite Forall_forall in FI. destruct (NAMED y v (FI y I) E) as (s & -> & N). split; [discriminate|]. exists [VSet r]. split; [repeat constructor; exact M|]. exists s. split; [reflexivity|]. right. exists y. split; [|exact N].
        rewrite <- EN in SAME. exact (first_same f sw r y SAME (conj I O)).
  Qed.
  Lemma local_ok : forall y u, In y (order t []) -> subtree t y = Some u -> has_local_name (t_info u) (local_name (t_info u)).
  Proof.
    intros y u I U. destruct (proj2 (proj2 PR) y u I U) as (PI_ & _). unfold has_local_name, local_name. unfold t_kind in PI_. destruct (i_kind (t_info u)); try reflexivity; try exact Logic.I.
    - destruct (i_uri (t_info u)); reflexivity.
    - destruct (i_uri (t_info u)); reflexivity.
    - rewrite (PI_ eq_refl). reflexivity.
  Qed.
  Lemma uri_ok : forall i, has_uri i (namespace_uri i).
  Proof. intros i. unfold has_uri, namespace_uri. destruct (i_kind i); reflexivity. Qed.
  Lemma name_ok : forall i, has_name i (node_name i).
  Proof. intros i. unfold has_name, node_name. destruct (i_kind i); try reflexivity; exact Logic.I. Qed.
  Lemma call_lemma : forall g b es ms x p l v, Forall2 (esound b true) es ms -> arity_ok g (length es) = true -> fine f d b x -> call k g es x p l = Got v ->
    (forall s, v <> VSet s) /\ ((exists vs, Forall2 (fun (m : meaning) w => m x p l w) ms vs /\ applies c f g x p l vs v) \/
      (g = Substring /\ exists u, match ms with m :: _ => m x p l u | [] => False end /\ as_text c f u [] /\ v = VStr [])).
  Proof.
    intros g b es ms x p l v H AR F E.
    Ltac take E y := match type of E with andthen ?a _ = _ => let EY := fresh "E" y in destruct a as [y| | |] eqn:EY; cbn [andthen] in E; try discriminate E end.
    Ltac one S F EV := let G := fresh "G" in let N := fresh "N" in let w := fresh "w" in let M := fresh "M" in let A := fresh "A" in destruct (S _ _ _ _ F EV) as (G & N & w & M & A).
    assert (ONE : (length es <= 1)%nat -> match g with LocalName | NamespaceUri | Name | String_ | StringLength | NormalizeSpace => True | _ => False end ->
      (forall s, v <> VSet s) /\ exists vs, Forall2 (fun (m : meaning) w => m x p l w) ms vs /\ applies c f g x p l vs v).
    { intros L GG. destruct g; try contradiction; cbn [call] in E.
      - exact (named_ok local_name has_local_name local_ok b es ms x p l v H L F E).
      - exact (named_ok namespace_uri has_uri (fun y u _ _ => uri_ok (t_info u)) b es ms x p l v H L F E).
      - exact (named_ok node_name has_name (fun y u _ _ => name_ok (t_info u)) b es ms x p l v H L F E).
      - take E s. injection E as <-. split; [discriminate|]. destruct (text_arg_ok b es ms x p l s H L F Es) as (vs & A & B). exists vs. split; [exact A|]. exists s. auto.
      - take E s. injection E as <-. split; [discriminate|]. destruct (text_arg_ok b es ms x p l s H L F Es) as (vs & A & B). exists vs. split; [exact A|]. exists s. auto.
      - take E s. rewrite normalize_whitespace_spec in E. cbn [lift andthen] in E. injection E as <-. split; [discriminate|]. destruct (text_arg_ok b es ms x p l s H L F Es) as (vs & A & B). exists vs. split; [exact A|]. exists s. auto. }
    assert (LE : match g with LocalName | NamespaceUri | Name | String_ | StringLength | NormalizeSpace => (length es <= 1)%nat | _ => True end).
    { destruct g; try exact Logic.I; unfold arity_ok in AR; cbn [arity] in AR; apply andb_true_iff in AR; destruct AR as (_ & AR); apply Nat.leb_le in AR; exact AR. }
    destruct g; try (destruct (ONE LE Logic.I) as (A & B); split; [exact A|left; exact B]); clear ONE LE; cbn [call] in E.
    - (* position *) destruct H; [|discriminate]. injection E as <-. split; [discriminate|]. left. exists []. split; [constructor|reflexivity].
    - (* last *) destruct H; [|discriminate]. injection E as <-. split; [discriminate|]. left. exists []. split; [constructor|reflexivity].
    - (* count *) destruct H as [|e m es ms S H]; [discriminate|]. destruct H; [|discriminate]. take E w0. injection E as <-. split; [discriminate|]. left. one S F Ew0. exists [w]. split; [repeat constructor; assumption|]. cbn [applies].
      destruct w0 as [?|?|?|s]; try (rewrite <- (alike_plain _ _ A) by discriminate; cbn; eauto; fail). destruct (alike_set _ _ A s eq_refl) as (r & -> & SAME). exists (s_nodes s). split; [split; [exact N|exact SAME]|reflexivity].
    - (* concat *) take E ts. injection E as <-. split; [discriminate|]. left. destruct (texts_ok b es ms H x p l ts F Ets) as (vs & A & B). exists vs. split; [exact A|].
      assert (EC : concat_strings ts = concat ts). { assert (GC : forall l s, fold_left (fun s a : list Z => s ++ a) l s = s ++ concat l) by (intros l0; induction l0 as [|a l0 IH]; intros s0; cbn [fold_left concat]; [rewrite app_nil_r; reflexivity|rewrite IH, app_assoc; reflexivity]). exact (GC ts []). }
      rewrite EC. assert (LV : length vs = length es) by (rewrite (Forall2_length _ _ _ H), (Forall2_length _ _ _ A); reflexivity). destruct vs as [|v1 [|v2 vs]]; cbn [applies]; [| |exists ts; auto]; rewrite <- LV in AR; discriminate.
    - (* starts-with *) destruct H as [|e1 m1 es ms S1 H]; [discriminate|]. destruct H as [|e2 m2 es ms S2 H]; [discriminate|]. destruct H; [|discriminate]. take E s1. take E s2. destruct (starts_with_ok s1 s2) as (r & ER & IFF). rewrite ER in E. cbn [lift andthen] in E. injection E as <-. split; [discriminate|]. left.
      destruct (text_ok b e1 m1 x p l s1 S1 F Es1) as (w1 & M1 & T1). destruct (text_ok b e2 m2 x p l s2 S2 F Es2) as (w2 & M2 & T2). exists [w1; w2]. split; [repeat constructor; assumption|]. exists s1, s2, r. auto.
    - (* contains *) destruct H as [|e1 m1 es ms S1 H]; [discriminate|]. destruct H as [|e2 m2 es ms S2 H]; [discriminate|]. destruct H; [|discriminate]. take E s1. take E s2. injection E as <-. split; [discriminate|]. left.
      destruct (text_ok b e1 m1 x p l s1 S1 F Es1) as (w1 & M1 & T1). destruct (text_ok b e2 m2 x p l s2 S2 F Es2) as (w2 & M2 & T2). exists [w1; w2]. split; [repeat constructor; assumption|]. exists s1, s2, (contains s1 s2). repeat split; auto; apply contains_ok.
    - (* substring-before *) destruct H as [|e1 m1 es ms S1 H]; [discriminate|]. destruct H as [|e2 m2 es ms S2 H]; [discriminate|]. destruct H; [|discriminate]. take E s1. take E s2. injection E as <-. split; [discriminate|]. left.
      destruct (text_ok b e1 m1 x p l s1 S1 F Es1) as (w1 & M1 & T1). destruct (text_ok b e2 m2 x p l s2 S2 F Es2) as (w2 & M2 & T2). exists [w1; w2]. split; [repeat constructor; assumption|]. exists s1, s2, (substring_before s1 s2). repeat split; auto; apply before_ok.
    - (* substring-after *) destruct H as [|e1 m1 es ms S1 H]; [discriminate|]. destruct H as [|e2 m2 es ms S2 H]; [discriminate|]. destruct H; [|discriminate]. take E s1. take E s2. injection E as <-. split; [discriminate|]. left.
      destruct (text_ok b e1 m1 x p l s1 S1 F Es1) as (w1 & M1 & T1). destruct (text_ok b e2 m2 x p l s2 S2 F Es2) as (w2 & M2 & T2). exists [w1; w2]. split; [repeat constructor; assumption|]. exists s1, s2, (substring_after s1 s2). repeat split; auto; apply after_ok.
    - (* substring *) destruct H as [|e1 m1 es ms S1 H]; [discriminate|]. destruct H as [|e2 m2 es ms S2 H]; [discriminate|]. take E s1. destruct (text_ok b e1 m1 x p l s1 S1 F Es1) as (w1 & M1 & T1). destruct s1 as [|c1 s1].
      + injection E as <-. split; [discriminate|]. right. split; [reflexivity|]. exists w1. auto.
      + take E n2. destruct (number_ok b e2 m2 x p l n2 S2 F En2) as (w2 & M2 & T2). destruct H as [|e3 m3 es ms S3 H].
        * cbn [andthen] in E. destruct (substring (c1 :: s1) n2 None) as [u| |] eqn:EU; try discriminate. injection E as <-. split; [discriminate|]. left. exists [w1; w2]. split; [repeat constructor; assumption|]. exists (c1 :: s1), n2, u. split; [exact T1|]. split; [exact T2|]. split; [reflexivity|apply substring_ok; exact EU].
        * destruct H; [|discriminate]. destruct (andthen (e3 x p l) (to_number k)) as [n3| | |] eqn:En3; cbn [andthen] in E; try discriminate. destruct (number_ok b e3 m3 x p l n3 S3 F En3) as (w3 & M3 & T3). destruct (substring (c1 :: s1) n2 (Some n3)) as [u| |] eqn:EU; try discriminate. injection E as <-. split; [discriminate|]. left. exists [w1; w2; w3]. split; [repeat constructor; assumption|]. exists (c1 :: s1), n2, n3, u. split; [exact T1|]. split; [exact T2|]. split; [exact T3|]. split; [reflexivity|apply substring_ok; exact EU].
    - (* translate *) destruct H as [|e1 m1 es ms S1 H]; [discriminate|]. destruct H as [|e2 m2 es ms S2 H]; [discriminate|]. destruct H as [|e3 m3 es ms S3 H]; [discriminate|]. destruct H; [|discriminate]. take E s1. take E s2. take E s3. destruct (translate s1 s2 s3) as [u| |] eqn:EU; cbn [lift andthen] in E; try discriminate. injection E as <-. split; [discriminate|]. left.
      destruct (text_ok b e1 m1 x p l s1 S1 F Es1) as (w1 & M1 & T1). destruct (text_ok b e2 m2 x p l s2 S2 F Es2) as (w2 & M2 & T2). destruct (text_ok b e3 m3 x p l s3 S3 F Es3) as (w3 & M3 & T3). exists [w1; w2; w3]. split; [repeat constructor; assumption|]. exists s1, s2, s3, u. repeat split; auto.
      intros a b' -> HA HB. destruct (translate_ok a b' s2 s3 HA HB) as (u' & EU' & TR). rewrite EU in EU'. injection EU' as <-. exact TR.
    - (* boolean *) destruct H as [|e m es ms S H]; [discriminate|]. destruct H; [|discriminate]. take E w0. injection E as <-. split; [discriminate|]. left. one S F Ew0. exists [w]. split; [repeat constructor; assumption|]. cbn [applies]. rewrite truth_ok, (alike_truth _ _ A). reflexivity.
    - (* not *) destruct H as [|e m es ms S H]; [discriminate|]. destruct H; [|discriminate]. take E w0. injection E as <-. split; [discriminate|]. left. one S F Ew0. exists [w]. split; [repeat constructor; assumption|]. cbn [applies]. rewrite truth_ok, (alike_truth _ _ A). reflexivity.
    - (* true *) destruct H; [|discriminate]. injection E as <-. split; [discriminate|]. left. exists []. split; [constructor|reflexivity].
    - (* false *) destruct H; [|discriminate]. injection E as <-. split; [discriminate|]. left. exists []. split; [constructor|reflexivity].
    - (* number *) destruct H as [|e m es ms S H].
      + rewrite (text_agrees b x F) in E. destruct (string_at f x) as [s|] eqn:ES; cbn [from_option andthen] in E; [|discriminate]. injection E as <-. split; [discriminate|]. left. exists []. split; [constructor|]. exists s. auto.
      + destruct H; [|discriminate]. take E n. injection E as <-. split; [discriminate|]. left. destruct (number_ok b e m x p l n S F En) as (w & M & T). exists [w]. split; [repeat constructor; assumption|]. exists n. auto.
    - (* sum *) destruct H as [|e m es ms S H]; [discriminate|]. destruct H; [|discriminate]. take E w0. take E n. injection E as <-. split; [discriminate|]. left. one S F Ew0. exists [w]. split; [repeat constructor; assumption|]. cbn [applies].
      destruct w0 as [?|?|?|s]; try (rewrite <- (alike_plain _ _ A) by discriminate; cbn; eauto; fail). destruct (alike_set _ _ A s eq_refl) as (r & -> & SAME). destruct (sum_ok (s_nodes s) zero n (proj2 G) En) as (ts & TS & ->). exists (s_nodes s), ts. split; [split; [exact N|exact SAME]|]. auto.
    - (* floor *) destruct H as [|e m es ms S H]; [discriminate|]. destruct H; [|discriminate]. take E n. injection E as <-. split; [discriminate|]. left. destruct (number_ok b e m x p l n S F En) as (w & M & T). exists [w]. split; [repeat constructor; assumption|]. exists n, (XNumber.floor n). split; [exact T|]. split; [reflexivity|apply floor_ok].
    - (* ceiling *) destruct H as [|e m es ms S H]; [discriminate|]. destruct H; [|discriminate]. take E n. injection E as <-. split; [discriminate|]. left. destruct (number_ok b e m x p l n S F En) as (w & M & T). exists [w]. split; [repeat constructor; assumption|]. exists n, (XNumber.ceil n). split; [exact T|]. split; [reflexivity|apply ceil_ok].
    - (* round *) destruct H as [|e m es ms S H]; [discriminate|]. destruct H; [|discriminate]. take E n. injection E as <-. split; [discriminate|]. left. destruct (number_ok b e m x p l n S F En) as (w & M & T). exists [w]. split; [repeat constructor; assumption|]. exists n, (round_number n). split; [exact T|]. split; [reflexivity|apply round_ok].
  Qed.

  Definition done (e : expr) : Prop := forall b, compiles e = true -> allowed t b e -> esound b (gives_attribute b e) (eval k e) (means c f vars e).
  Lemma all_done : forall es, Forall done es -> forall b, forallb (fun b => b) (map compiles es) = true -> fold_right and True (map (allowed t b) es) ->
    Forall2 (esound b true) (map (eval k) es) (map (means c f vars) es).
  Proof.
    intros es H. induction H as [|e es D H IH]; intros b CO AL; [constructor|]. cbn [map forallb fold_right] in *. apply andb_true_iff in CO. destruct CO as (C1 & C2), AL as (A1 & A2). constructor; [apply (esound_more b (gives_attribute b e)); apply D; assumption|apply IH; assumption].
  Qed.
  Lemma all_refine : forall b es ms, Forall2 (esound b true) es ms -> Forall2 (refines (fine f d b)) es ms.
  Proof. intros b es ms H. induction H as [|e m es ms S H IH]; constructor; [|exact IH]. apply (sound_refines f d b true). apply esound_sound. exact S. Qed.
  Definition code_of (s : step_of expr) : step := match s with AxisStep a s qs => TestStep a (get_test a s) (map (eval k) qs) | FilterStep e qs => ExprStep (eval k e) (map (eval k) qs) end.
  Definition want_of (s : step_of expr) : wanted := match s with AxisStep a s qs => ByAxis a s (map (means c f vars) qs) | FilterStep e qs => ByValue (means c f vars e) (map (means c f vars) qs) end.
  Definition flag (b : bool) (s : step_of expr) : bool := match s with AxisStep a _ _ => to_attribute a b | FilterStep e _ => gives_attribute b e end.
  Definition step_compiles (s : step_of expr) : bool := match s with AxisStep _ _ qs => forallb (fun b => b) (map compiles qs) | FilterStep e qs => compiles e && forallb (fun b => b) (map compiles qs) end.
  Definition go := fix go (from : bool) (l : list (step_of expr)) : Prop :=
    match l with
    | [] => True
    | AxisStep a s qs :: r => step_allowed t from a s /\ fold_right and True (map (allowed t (to_attribute a from)) qs) /\ go (to_attribute a from) r
    | FilterStep _ _ :: _ => False
    end.
  Lemma axes_follow : forall steps, Forall (step_all done) steps -> forall b, forallb (fun b => b) (map step_compiles steps) = true -> go b steps -> follows f d b (map code_of steps) (map want_of steps) (fold_left flag steps b).
  Proof.
    intros steps H. induction H as [|s steps D H IH]; intros b CO GO; [constructor|]. destruct s as [a s qs|e qs]; [|contradiction]. cbn [map forallb step_compiles go fold_left flag code_of want_of step_all] in *. apply andb_true_iff in CO. destruct CO as (C1 & C2), GO as (SA & AL & GO).
    constructor; [exact SA| |apply IH; assumption]. apply all_refine. apply all_done; assumption.
  Qed.
  Lemma path_follow : forall b (absolute : bool) steps, Forall (step_all done) steps -> compiles (EPath absolute steps) = true -> allowed t b (EPath absolute steps) ->
    path_follows f d (if absolute then false else b) (map code_of steps) (map want_of steps) (gives_attribute b (EPath absolute steps)).
  Proof.
    intros b absolute steps H CO AL. change (forallb (fun b => b) (map step_compiles steps) = true) in CO. change (gives_attribute b (EPath absolute steps)) with (fold_left flag steps (if absolute then false else b)).
    destruct steps as [|[a s qs|e qs] steps].
    - apply path_axes. constructor.
    - apply path_axes. apply axes_follow; [exact H|exact CO|exact AL].
    - change (absolute = false /\ allowed t b e /\ fold_right and True (map (allowed t (gives_attribute b e)) qs) /\ go (gives_attribute b e) steps) in AL. destruct AL as (-> & A1 & A2 & A3). inversion H as [|? ? DD HR]; subst. destruct DD as (D & DQ). cbn [map forallb step_compiles] in CO. apply andb_true_iff in CO. destruct CO as (C1 & C2). apply andb_true_iff in C1. destruct C1 as (C0 & C1).
      cbn [map code_of want_of fold_left flag]. eapply path_value; [apply esound_sound; apply (D b C0 A1)|apply all_refine; apply all_done; assumption|apply axes_follow; assumption].
  Qed.
  Lemma root_ok : forall b x, fine f d b x -> match subtree (f_tree f (fst x)) (snd x) with Some u => if is_root_kind (t_kind u) then x else (f_doc f (fst x), []) | None => (f_doc f (fst x), []) end = (d, []).
  Proof.
    intros b x (D & I & _). rewrite D, OWN. apply nodes_in in I. destruct I as (I & _). fold t. fold t in I. destruct (subtree t (snd x)) as [u|] eqn:U; [|reflexivity]. destruct (is_root_kind (t_kind u)) eqn:R; [|reflexivity]. destruct x as [dx px]. cbn [fst snd] in *. subst dx. f_equal.
    destruct (proj2 (proj2 PR) px u I U) as (_ & NF). assert (KD : t_kind u = Xdocument) by (destruct (t_kind u); try discriminate; [reflexivity|destruct NF; reflexivity]). clear NF R. pose proof (proj1 (proj2 WD)) as SH.
    apply in_order in I. destruct I as [(K & _)|(i & e & -> & K & v & V)].
    - destruct px as [|[i| |] q]; try contradiction; [reflexivity|]. exfalso. cbn [subtree] in U. destruct (subtree t q) as [w|] eqn:W; [|discriminate]. pose proof (shape_sub t q w SH K W) as SW. destruct w as [iw aw kw]. apply shape_eq in SW. destruct SW as (_ & _ & _ & FK & _). rewrite Forall_forall in FK. destruct (FK u (nth_error_In _ _ U)) as (_ & ND). contradiction.
    - exfalso. cbn [subtree] in U. destruct (subtree t e) as [w|] eqn:W; [|discriminate]. pose proof (shape_sub t e w SH K W) as SW. destruct w as [iw aw kw]. apply shape_eq in SW. destruct SW as (_ & _ & FA & _). rewrite Forall_forall in FA. destruct (FA u (nth_error_In _ _ U)) as (KA & _). congruence.
  Qed.
  Lemma root_fine : fine f d false (d, []).
  Proof.
    split; [reflexivity|]. split; [|intros _ (i & q & E); discriminate]. cbn [snd]. fold t. apply nodes_in. split; [apply in_order; left; split; [exact Logic.I|exists t; reflexivity]|]. unfold continues. unfold is_text. cbn [subtree]. unfold tree_is_text. rewrite (proj1 WD). reflexivity.
  Qed.
  Lemma sorted_once : forall s, good_set f s -> s_sorted s = true -> NoDup (s_nodes s).
  Proof.
    intros s G S. pose proof (good_is_sorted f s DOC G S) as SO. unfold is_sorted in SO. destruct (s_forward s); [exact (precedes_nodup f _ SO)|]. rewrite <- (rev_involutive (s_nodes s)). apply NoDup_rev. apply (precedes_nodup f). apply sorted_rev in SO. exact SO.
  Qed.
  Lemma eval_lemma : forall e, done e.
  Proof.
    apply expr_ind2; unfold done.
    - intros n b _ _ x p l v F E. injection E as <-. split; [exact Logic.I|]. split; [exact Logic.I|]. eexists. split; [reflexivity|apply alike_refl].
    - intros s b _ _ x p l v F E. injection E as <-. split; [exact Logic.I|]. split; [exact Logic.I|]. eexists. split; [reflexivity|apply alike_refl].
    - intros u n b _ _ x p l v F E. cbn [eval] in E. pose proof (VARS u n v E) as US. split; [|split].
      + destruct v as [| | |s]; try exact Logic.I. destruct US as (MA & _ & IN). split; [exact (made_good ss f s SS DOC MA)|]. apply Forall_forall. intros y Y. destruct (IN y Y) as (D & NY). split; [exact D|]. split; [exact NY|discriminate].
      + destruct v as [| | |s]; try exact Logic.I. apply US.
      + exists v. split; [exact E|apply alike_refl].
    - intros a b' IA IB b CO (AA & AB) x p l v F E. cbn [compiles] in CO. apply andb_true_iff in CO. destruct CO as (CA & CB). cbn [eval] in E. destruct (eval k a x p l) as [va| | |] eqn:EA; cbn [andthen] in E; try discriminate. destruct (IA b CA AA x p l va F EA) as (_ & _ & wa & MA & LA). rewrite truth_ok, (alike_truth _ _ LA) in E. destruct (truth wa) eqn:TA.
      + injection E as <-. split; [exact Logic.I|]. split; [exact Logic.I|]. exists (VBool true). split; [|reflexivity]. exists wa. auto.
      + destruct (eval k b' x p l) as [vb| | |] eqn:EB; cbn [andthen] in E; try discriminate. injection E as <-. destruct (IB b CB AB x p l vb F EB) as (_ & _ & wb & MB & LB). split; [exact Logic.I|]. split; [exact Logic.I|]. eexists. split; [|apply alike_refl]. exists wa. split; [exact MA|]. right. split; [exact TA|]. exists wb. split; [exact MB|]. rewrite truth_ok, (alike_truth _ _ LB). reflexivity.
    - intros a b' IA IB b CO (AA & AB) x p l v F E. cbn [compiles] in CO. apply andb_true_iff in CO. destruct CO as (CA & CB). cbn [eval] in E. destruct (eval k a x p l) as [va| | |] eqn:EA; cbn [andthen] in E; try discriminate. destruct (IA b CA AA x p l va F EA) as (_ & _ & wa & MA & LA). rewrite truth_ok, (alike_truth _ _ LA) in E. destruct (truth wa) eqn:TA.
      + destruct (eval k b' x p l) as [vb| | |] eqn:EB; cbn [andthen] in E; try discriminate. injection E as <-. destruct (IB b CB AB x p l vb F EB) as (_ & _ & wb & MB & LB). split; [exact Logic.I|]. split; [exact Logic.I|]. eexists. split; [|apply alike_refl]. exists wa. split; [exact MA|]. right. split; [exact TA|]. exists wb. split; [exact MB|]. rewrite truth_ok, (alike_truth _ _ LB). reflexivity.
      + injection E as <-. split; [exact Logic.I|]. split; [exact Logic.I|]. exists (VBool false). split; [|reflexivity]. exists wa. auto.
    - intros op a b' IA IB b CO (AA & AB) x p l v F E. cbn [compiles] in CO. apply andb_true_iff in CO. destruct CO as (CA & CB). cbn [eval] in E. destruct (eval k a x p l) as [va| | |] eqn:EA; cbn [andthen] in E; try discriminate. destruct (eval k b' x p l) as [vb| | |] eqn:EB; cbn [andthen] in E; try discriminate.
      destruct (IA b CA AA x p l va F EA) as (GA & _ & wa & MA & LA). destruct (IB b CB AB x p l vb F EB) as (GB & _ & wb & MB & LB). destruct (compared_ok op va vb wa wb v (good_more _ _ GA) (good_more _ _ GB) LA LB E) as (r & -> & R). split; [exact Logic.I|]. split; [exact Logic.I|]. exists (VBool r). split; [|reflexivity]. exists wa, wb, r. auto.
    - intros op a b' IA IB b CO (AA & AB) x p l v F E. cbn [compiles] in CO. apply andb_true_iff in CO. destruct CO as (CA & CB). cbn [eval] in E. destruct (eval k a x p l) as [va| | |] eqn:EA; cbn [andthen] in E; try discriminate. destruct (to_number k va) as [m| | |] eqn:NA; cbn [andthen] in E; try discriminate. destruct (eval k b' x p l) as [vb| | |] eqn:EB; cbn [andthen] in E; try discriminate. destruct (to_number k vb) as [n| | |] eqn:NB; cbn [andthen] in E; try discriminate.
      destruct (IA b CA AA x p l va F EA) as (GA & _ & wa & MA & LA). destruct (IB b CB AB x p l vb F EB) as (GB & _ & wb & MB & LB). pose proof (alike_num _ _ _ _ _ LA (to_number_ok va m (good_more _ _ GA) NA)) as TA. pose proof (alike_num _ _ _ _ _ LB (to_number_ok vb n (good_more _ _ GB) NB)) as TB.
      assert (R : exists r, v = VNum r /\ calculates op m n r). { destruct op; cbn [arithmetic] in E; try (injection E as <-; eexists; split; reflexivity). destruct (modulus m n) as [r|] eqn:EM; [|discriminate]. injection E as <-. exists r. split; [reflexivity|apply modulus_calculates; exact EM]. }
      destruct R as (r & -> & R). split; [exact Logic.I|]. split; [exact Logic.I|]. exists (VNum r). split; [|reflexivity]. exists wa, wb, m, n, r. auto 10.
    - intros a IA b CO AA x p l v F E. cbn [eval] in E. destruct (eval k a x p l) as [va| | |] eqn:EA; cbn [andthen] in E; try discriminate. destruct (to_number k va) as [m| | |] eqn:NA; cbn [andthen] in E; try discriminate. injection E as <-. destruct (IA b CO AA x p l va F EA) as (GA & _ & wa & MA & LA). split; [exact Logic.I|]. split; [exact Logic.I|]. eexists. split; [|apply alike_refl]. exists wa, m. split; [exact MA|]. split; [|reflexivity].
      eapply alike_num; [exact LA|]. apply to_number_ok; [exact (good_more _ _ GA)|exact NA].
    - intros a b' IA IB b CO (AA & AB) x p l v F E. cbn [compiles] in CO. apply andb_true_iff in CO. destruct CO as (CA & CB). cbn [eval] in E. unfold united in E. destruct (eval k a x p l) as [va| | |] eqn:EA; cbn [andthen] in E; try discriminate. destruct va as [| | |sa]; try discriminate. destruct (eval k b' x p l) as [vb| | |] eqn:EB; cbn [andthen] in E; try discriminate. destruct vb as [| | |sb]; try discriminate. injection E as <-.
      destruct (IA b CA AA x p l _ F EA) as (GA & NA & wa & MA & LA). destruct (IB b CB AB x p l _ F EB) as (GB & NB & wb & MB & LB). destruct (alike_set _ _ LA sa eq_refl) as (ra & -> & HA). destruct (alike_set _ _ LB sb eq_refl) as (rb & -> & HB). fold f ss. cbn [good_value nodup_value gives_attribute] in *.
      destruct (union_lemma ss f sa sb SS DOC (proj1 GA) (proj1 GB)) as (SO & IN). set (u := union ss f sa sb) in *.
      assert (FU : Forall (fine f d (gives_attribute b a || gives_attribute b b')) (s_nodes u)).
      { apply Forall_forall. intros y Y. apply IN in Y. destruct GA as (_ & FA), GB as (_ & FB). rewrite Forall_forall in FA, FB. destruct Y as [Y|Y]; [destruct (FA y Y) as (D & I & FL)|destruct (FB y Y) as (D & I & FL)]; (split; [exact D|split; [exact I|]]); intros OR; apply Bool.orb_false_iff in OR; apply FL; apply OR. }
      assert (GU : good_set f u /\ NoDup (s_nodes u)).
      { unfold u, union in *. destruct (s_nodes sa) as [|x1 l1] eqn:N1; [split; [exact (proj1 GB)|exact NB]|]. destruct (s_nodes sb) as [|x2 l2] eqn:N2; [split; [exact (proj1 GA)|rewrite N1; exact NA]|]. split; [|apply (precedes_nodup f); apply SO; discriminate].
        destruct (op_spec ss f (Insert (length (x1 :: l1) - 1) (x2 :: l2)) sa SS DOC (proj1 GA)) as (G & _); [rewrite <- N2; exact (proj1 (proj1 GB))|]. cbn [apply_op] in G. apply (to_document_order_spec ss f _ SS DOC G). }
      split; [split; [exact (proj1 GU)|exact FU]|]. split; [exact (proj2 GU)|]. exists (VSet u). split; [|apply alike_refl]. exists ra, rb, u. split; [exact MA|]. split; [exact MB|]. split; [reflexivity|]. intros y. rewrite IN, HA, HB. reflexivity.
    - intros g args IH b CO AL x p l v F E. cbn [compiles] in CO. apply andb_true_iff in CO. destruct CO as (AR & CO). cbn [eval] in E. destruct (call_lemma g b (map (eval k) args) (map (means c f vars) args) x p l v (all_done args IH b CO AL)) as (NS & R); [rewrite map_length; exact AR|exact F|exact E|].
      split; [destruct v as [| | |s]; try exact Logic.I; destruct (NS s eq_refl)|]. split; [destruct v as [| | |s]; try exact Logic.I; destruct (NS s eq_refl)|]. exists v. split; [exact R|apply alike_refl].
    - intros absolute steps IH b CO AL x p l v F E. pose proof (path_follow b absolute steps IH CO AL) as PF. cbn [eval] in E. change (map (fun s => match s with AxisStep a s0 qs => TestStep a (get_test a s0) (map (eval k) qs) | FilterStep e rs => ExprStep (eval k e) (map (eval k) rs) end) steps) with (map code_of steps) in E. fold ss f in E.
      assert (R : exists s, v = VSet s /\ good f d (gives_attribute b (EPath absolute steps)) s /\ s_sorted s = true /\ gives f p l (map want_of steps) [if absolute then (fst x, []) else x] (s_nodes s)).
      { destruct absolute; [|exact (path_lemma ss f d SS DOC OWN WD b _ _ _ PF x p l v F E)]. unfold absolute_path in E. rewrite (root_ok b x F) in E. destruct F as (D & _). rewrite D. exact (path_lemma ss f d SS DOC OWN WD false _ _ _ PF (d, []) p l v root_fine E). }
      destruct R as (s & -> & G & S & GV). split; [exact G|]. split; [exact (sorted_once s (proj1 G) S)|]. exists (VSet s). split; [|apply alike_refl]. exists s. split; [reflexivity|exact GV].
  Qed.
End Document.

(** The whole evaluation. *)
Definition conversions_of (k : env) : conversions := Conversions (e_num k) (e_show k).
Definition variables_of (k : env) : str -> str -> value -> Prop := fun uri name v => e_vars k uri name = Got v.
Lemma evaluate_lemma : forall k d (from : bool) e x position last v, sorts (e_sort k) -> documents (e_forest k) -> f_doc (e_forest k) d = d -> proper (f_tree (e_forest k) d) ->
  (forall uri name v, e_vars k uri name = Got v -> usable (e_sort k) (e_forest k) d v) ->
  fst x = d -> In (snd x) (nodes (f_tree (e_forest k) d)) -> (from = false -> ~ is_attribute (snd x)) -> allowed (f_tree (e_forest k) d) from e ->
  evaluate k e x position last = Got v ->
  (forall s, v = VSet s -> NoDup (s_nodes s) /\ forall y, In y (s_nodes s) -> fst y = d /\ In (snd y) (nodes (f_tree (e_forest k) d))) /\
  exists w, means (conversions_of k) (e_forest k) (variables_of k) e x position last w /\ same_value v w.
Proof.
  intros k d from e x p l v SS DOC OWN PR VARS D I NA AL E. unfold evaluate in E. destruct (compiles e) eqn:CO; [|discriminate]. destruct (eval_lemma k d SS DOC OWN PR VARS e from CO AL x p l v (conj D (conj I NA)) E) as (G & N & w & M & A). split; [|exists w; split; [exact M|exact A]].
  intros s ->. split; [exact N|]. destruct G as (_ & FI). rewrite Forall_forall in FI. intros y Y. destruct (FI y Y) as (A1 & A2 & _). auto.
Qed.
