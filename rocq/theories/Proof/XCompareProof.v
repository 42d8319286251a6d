From Coq Require Import SpecFloat.
From Verif.Model Require Import Base Containers XNode XNodeSet XCompare.
From Verif.Spec Require Import XCompareSpec.
From Verif.Proof Require Import Tac ContainersProof.

(** * The order of the numbers *)
Definition key (n : spec_float) : Z * Z * Z :=
  match n with
  | S754_nan => (0, 0, 0)
  | S754_zero _ => (0, 0, 0)
  | S754_infinity s => if s then (-2, 0, 0) else (2, 0, 0)
  | S754_finite s m e => if s then (-1, - e, Z.neg m) else (1, e, Z.pos m)
  end.
Definition klt (a b : Z * Z * Z) : Prop :=
  let '(a1, a2, a3) := a in let '(b1, b2, b3) := b in a1 < b1 \/ (a1 = b1 /\ (a2 < b2 \/ (a2 = b2 /\ a3 < b3))).
Lemma pcompare : forall a b, Pcompare a b Eq = (a ?= b)%positive. Proof. reflexivity. Qed.
Lemma compare_key : forall a b, is_nan a = false -> is_nan b = false ->
  exists c, SFcompare a b = Some c /\ match c with Lt => klt (key a) (key b) | Eq => key a = key b | Gt => klt (key b) (key a) end.
Proof.
  intros a b A B. destruct a as [s|s| |s m e]; destruct b as [t|t| |t m' e']; try discriminate; cbn [SFcompare]; eexists; (split; [reflexivity|]).
  all: try (destruct s); try (destruct t); cbn; try lia; try reflexivity.
  - destruct (Z.compare_spec e e') as [E|E|E]; [|lia|lia]. rewrite pcompare. destruct (Pos.compare_spec m m') as [M|M|M]; cbn; [subst; reflexivity|lia|lia].
  - destruct (Z.compare_spec e e') as [E|E|E]; [|lia|lia]. rewrite pcompare. destruct (Pos.compare_spec m m') as [M|M|M]; cbn; [subst; reflexivity|lia|lia].
Qed.
Lemma nan_compare : forall a b, is_nan a = true \/ is_nan b = true -> SFcompare a b = None.
Proof. intros a b [H|H]; [destruct a; try discriminate; reflexivity|destruct b; try discriminate; destruct a; reflexivity]. Qed.
Lemma compare_sym : forall a b, SFcompare b a = option_map CompOpp (SFcompare a b).
Proof.
  intros a b. destruct (is_nan a) eqn:A; [rewrite !nan_compare by auto; reflexivity|]. destruct (is_nan b) eqn:B; [rewrite !nan_compare by auto; reflexivity|].
  destruct (compare_key a b A B) as (c & C & K). destruct (compare_key b a B A) as (d & D & L). rewrite C, D. cbn. f_equal. destruct (key a) as ((a1 & a2) & a3), (key b) as ((b1 & b2) & b3). unfold klt in *. destruct c, d; try reflexivity; try (injection K; injection L; lia); exfalso; try (injection K as ->; subst); try (injection L as ->; subst); lia.
Qed.
Lemma eqb_ok : forall a b, SFeqb a b = true <-> numbers OpEq a b.
Proof. intros a b. unfold SFeqb. cbn. destruct (SFcompare a b) as [[]|]; split; congruence. Qed.
Lemma ltb_ok : forall a b, SFltb a b = true <-> numbers OpLt a b.
Proof. intros a b. unfold SFltb. cbn. destruct (SFcompare a b) as [[]|]; split; congruence. Qed.
Lemma leb_ok : forall a b, SFleb a b = true <-> numbers OpLe a b.
Proof. intros a b. unfold SFleb. cbn. destruct (SFcompare a b) as [[]|]; split; intros H; try discriminate; auto; destruct H; discriminate. Qed.
Lemma gtb_ok : forall a b, SFltb b a = true <-> numbers OpGt a b.
Proof. intros a b. rewrite ltb_ok. cbn. rewrite compare_sym. destruct (SFcompare a b) as [[]|]; cbn; split; congruence. Qed.
Lemma geb_ok : forall a b, SFleb b a = true <-> numbers OpGe a b.
Proof. intros a b. rewrite leb_ok. cbn. rewrite compare_sym. destruct (SFcompare a b) as [[]|]; cbn; split; intros [H|H]; try discriminate; auto. Qed.
Lemma neb_ok : forall a b, negb (SFeqb a b) = true <-> numbers OpNe a b.
Proof. intros a b. unfold SFeqb. cbn. destruct (SFcompare a b) as [[]|]; cbn; split; congruence. Qed.
Lemma truth_ok : forall v, as_bool v = truth v.
Proof. intros [b|n|s|s]; try reflexivity. destruct n as [[]|[]| |[] m e]; reflexivity. Qed.

(** * Least and greatest *)
Definition least (m : spec_float) (l : list spec_float) : Prop :=
  if is_nan m then (forall v, In v l -> is_nan v = true) else In m l /\ forall v, In v l -> is_nan v = false -> ~ klt (key v) (key m).
Definition greatest (m : spec_float) (l : list spec_float) : Prop :=
  if is_nan m then (forall v, In v l -> is_nan v = true) else In m l /\ forall v, In v l -> is_nan v = false -> ~ klt (key m) (key v).
Lemma ltb_key : forall a b, is_nan a = false -> is_nan b = false -> (SFltb a b = true <-> klt (key a) (key b)).
Proof.
  intros a b A B. unfold SFltb. destruct (compare_key a b A B) as (c & -> & K). destruct (key a) as ((a1 & a2) & a3), (key b) as ((b1 & b2) & b3). unfold klt in *. destruct c; split; intros H; try discriminate; auto; exfalso; [injection K as -> -> ->; lia|lia].
Qed.
Lemma leb_key : forall a b, is_nan a = false -> is_nan b = false -> (SFleb a b = true <-> ~ klt (key b) (key a)).
Proof.
  intros a b A B. unfold SFleb. destruct (compare_key a b A B) as (c & -> & K). destruct (key a) as ((a1 & a2) & a3), (key b) as ((b1 & b2) & b3). unfold klt in *. destruct c; split; intros H; try discriminate; try tauto; [injection K as -> -> ->; lia|lia].
Qed.
Lemma min_step : forall m v l, least m l -> least (if is_nan v then m else if negb (SFltb m v) then v else m) (v :: l).
Proof.
  intros m v l H. unfold least in *. destruct (is_nan v) eqn:V.
  - destruct (is_nan m) eqn:M; [intros w [<-|W]; auto|]. destruct H as (H1 & H2). split; [right; exact H1|]. intros w [<-|W] N; [congruence|auto].
  - destruct (is_nan m) eqn:M.
    + assert (E : SFltb m v = false) by (unfold SFltb; rewrite nan_compare by auto; reflexivity). rewrite E. cbn [negb]. rewrite V. split; [left; reflexivity|]. intros w [<-|W] N; [destruct (key v) as ((? & ?) & ?); cbn; lia|rewrite (H w W) in N; discriminate].
    + destruct H as (H1 & H2). pose proof (ltb_key m v M V) as K. destruct (SFltb m v); cbn [negb].
      * rewrite M. split; [right; exact H1|]. intros w [<-|W] N; [|auto]. destruct K as [K _]. specialize (K eq_refl). destruct (key v) as ((? & ?) & ?), (key m) as ((? & ?) & ?). unfold klt in *. lia.
      * rewrite V. split; [left; reflexivity|]. assert (K' : ~ klt (key m) (key v)) by (intros C; apply K in C; discriminate). intros w [<-|W] N; [destruct (key v) as ((? & ?) & ?); cbn; lia|]. specialize (H2 w W N). destruct (key w) as ((? & ?) & ?), (key m) as ((? & ?) & ?), (key v) as ((? & ?) & ?). unfold klt in *. lia.
Qed.
Lemma max_step : forall m v l, greatest m l -> greatest (if is_nan v then m else if negb (SFltb v m) then v else m) (v :: l).
Proof.
  intros m v l H. unfold greatest in *. destruct (is_nan v) eqn:V.
  - destruct (is_nan m) eqn:M; [intros w [<-|W]; auto|]. destruct H as (H1 & H2). split; [right; exact H1|]. intros w [<-|W] N; [congruence|auto].
  - destruct (is_nan m) eqn:M.
    + assert (E : SFltb v m = false) by (unfold SFltb; rewrite nan_compare by auto; reflexivity). rewrite E. cbn [negb]. rewrite V. split; [left; reflexivity|]. intros w [<-|W] N; [destruct (key v) as ((? & ?) & ?); cbn; lia|rewrite (H w W) in N; discriminate].
    + destruct H as (H1 & H2). pose proof (ltb_key v m V M) as K. destruct (SFltb v m); cbn [negb].
      * rewrite M. split; [right; exact H1|]. intros w [<-|W] N; [|auto]. destruct K as [K _]. specialize (K eq_refl). destruct (key v) as ((? & ?) & ?), (key m) as ((? & ?) & ?). unfold klt in *. lia.
      * rewrite V. split; [left; reflexivity|]. assert (K' : ~ klt (key v) (key m)) by (intros C; apply K in C; discriminate). intros w [<-|W] N; [destruct (key v) as ((? & ?) & ?); cbn; lia|]. specialize (H2 w W N). destruct (key w) as ((? & ?) & ?), (key m) as ((? & ?) & ?), (key v) as ((? & ?) & ?). unfold klt in *. lia.
Qed.
Lemma least_same : forall m l l', (forall v, In v l <-> In v l') -> least m l -> least m l'.
Proof. intros m l l' E. unfold least. destruct (is_nan m); [intros H v V; apply H, E, V|intros (A & B); split; [apply E, A|intros v V; apply B, E, V]]. Qed.
Lemma greatest_same : forall m l l', (forall v, In v l <-> In v l') -> greatest m l -> greatest m l'.
Proof. intros m l l' E. unfold greatest. destruct (is_nan m); [intros H v V; apply H, E, V|intros (A & B); split; [apply E, A|intros v V; apply B, E, V]]. Qed.
Lemma min_fold : forall r l m done, least m done ->
  least (fold_left (fun v y => let vt := node_number r y in if is_nan vt then v else if negb (SFltb v vt) then vt else v) l m) (map (node_number r) l ++ done).
Proof.
  intros r l. induction l as [|x l IH]; intros m done H; [exact H|]. cbn [fold_left map app]. eapply least_same; [|apply IH, min_step, H]. intros v. rewrite !in_app_iff. cbn. rewrite in_app_iff. tauto.
Qed.
Lemma max_fold : forall r l m done, greatest m done ->
  greatest (fold_left (fun v y => let vt := node_number r y in if is_nan vt then v else if negb (SFltb vt v) then vt else v) l m) (map (node_number r) l ++ done).
Proof.
  intros r l. induction l as [|x l IH]; intros m done H; [exact H|]. cbn [fold_left map app]. eapply greatest_same; [|apply IH, max_step, H]. intros v. rewrite !in_app_iff. cbn. rewrite in_app_iff. tauto.
Qed.
Lemma least_one : forall m, least m [m].
Proof. intros m. unfold least. destruct (is_nan m) eqn:M; [intros v [<-|[]]; exact M|]. split; [left; reflexivity|]. intros v [<-|[]] _. destruct (key m) as ((? & ?) & ?). cbn. lia. Qed.
Lemma greatest_one : forall m, greatest m [m].
Proof. intros m. unfold greatest. destruct (is_nan m) eqn:M; [intros v [<-|[]]; exact M|]. split; [left; reflexivity|]. intros v [<-|[]] _. destruct (key m) as ((? & ?) & ?). cbn. lia. Qed.
Lemma min_ok : forall r s, s_nodes s <> [] -> exists m, min_value r s = Some m /\ least m (map (node_number r) (s_nodes s)).
Proof.
  intros r s N. unfold min_value. destruct (s_nodes s) as [|x l]; [contradiction|]. eexists. split; [reflexivity|]. eapply least_same; [|apply min_fold, least_one]. intros v. cbn [map]. rewrite in_app_iff. cbn. tauto.
Qed.
Lemma max_ok : forall r s, s_nodes s <> [] -> exists m, max_value r s = Some m /\ greatest m (map (node_number r) (s_nodes s)).
Proof.
  intros r s N. unfold max_value. destruct (s_nodes s) as [|x l]; [contradiction|]. eexists. split; [reflexivity|]. eapply greatest_same; [|apply max_fold, greatest_one]. intros v. cbn [map]. rewrite in_app_iff. cbn. tauto.
Qed.
Lemma op_nan : forall op a b, op = SFltb \/ op = SFleb -> op a b = true -> is_nan a = false /\ is_nan b = false.
Proof.
  intros op a b [->| ->] H; unfold SFltb, SFleb in H; destruct (is_nan a) eqn:A; try (rewrite nan_compare in H by auto; discriminate); destruct (is_nan b) eqn:B; try (rewrite nan_compare in H by auto; discriminate); auto.
Qed.
Lemma extremes : forall op l l' m M, op = SFltb \/ op = SFleb -> least m l -> greatest M l' -> (op m M = true <-> exists a b, In a l /\ In b l' /\ op a b = true).
Proof.
  intros op l l' m M O L G. split.
  - intros H. destruct (op_nan op m M O H) as (N1 & N2). unfold least, greatest in *. rewrite N1 in L. rewrite N2 in G. exists m, M. tauto.
  - intros (a & b & A & B & H). destruct (op_nan op a b O H) as (N1 & N2). unfold least, greatest in *.
    destruct (is_nan m) eqn:E1; [rewrite (L a A) in N1; discriminate|]. destruct (is_nan M) eqn:E2; [rewrite (G b B) in N2; discriminate|]. destruct L as (L1 & L2), G as (G1 & G2). specialize (L2 a A N1). specialize (G2 b B N2).
    destruct O as [->| ->]; [rewrite ltb_key in * by auto|rewrite leb_key in * by auto]; destruct (key a) as ((? & ?) & ?), (key b) as ((? & ?) & ?), (key m) as ((? & ?) & ?), (key M) as ((? & ?) & ?); unfold klt in *; lia.
Qed.
Lemma sets_compare : forall r op a b, op = SFltb \/ op = SFleb -> s_nodes a <> [] -> s_nodes b <> [] ->
  exists c, compare_node_sets r op a b = Some c /\ (c = true <-> exists x y, In x (s_nodes a) /\ In y (s_nodes b) /\ op (node_number r x) (node_number r y) = true).
Proof.
  intros r op a b O A B. destruct (min_ok r a A) as (m & E1 & L). destruct (max_ok r b B) as (M & E2 & G). unfold compare_node_sets. rewrite E1, E2. eexists. split; [reflexivity|]. rewrite (extremes op _ _ m M O L G). split.
  - intros (x & y & X & Y & H). apply in_map_iff in X. apply in_map_iff in Y. destruct X as (u & <- & U), Y as (w & <- & W). exists u, w. auto.
  - intros (x & y & X & Y & H). exists (node_number r x), (node_number r y). split; [apply in_map, X|split; [apply in_map, Y|exact H]].
Qed.

(** * Equality of sets *)
Lemma eqb_str : forall a b, str_eqb a b = true <-> a = b. Proof. exact str_eqb_true. Qed.
Lemma sets_equal : forall r a b, node_sets_equal r a b = true <-> exists x y, In x (s_nodes a) /\ In y (s_nodes b) /\ text_of r x = text_of r y.
Proof.
  intros r a b. unfold node_sets_equal. destruct (s_nodes a) as [|x l]; [split; [discriminate|intros (x & y & [] & _)]|]. destruct (s_nodes b) as [|y m]; [split; [discriminate|intros (u & w & _ & [] & _)]|]. set (ys := y :: m).
  destruct (existsb (fun y0 => str_eqb (text_of r x) (text_of r y0)) ys) eqn:E.
  - split; [intros _|reflexivity]. apply existsb_exists in E. destruct E as (w & W & E). apply eqb_str in E. exists x, w. split; [left; reflexivity|auto].
  - rewrite existsb_exists. split.
    + intros (z & Z' & H). apply existsb_exists in H. destruct H as (w & W & H). apply eqb_str in H. exists z, w. split; [right; exact Z'|auto].
    + intros (z & w & [<-|Z'] & W & H).
      * assert (C : existsb (fun y0 => str_eqb (text_of r x) (text_of r y0)) ys = true) by (apply existsb_exists; exists w; split; [exact W|apply eqb_str; exact H]). congruence.
      * exists z. split; [exact Z'|]. apply existsb_exists. exists w. split; [exact W|apply eqb_str; exact H].
Qed.
Lemma sets_not_equal : forall r a b, node_sets_not_equal r a b = true <-> exists x y, In x (s_nodes a) /\ In y (s_nodes b) /\ text_of r x <> text_of r y.
Proof.
  intros r a b. unfold node_sets_not_equal. destruct (s_nodes a) as [|x l]; [split; [discriminate|intros (x & y & [] & _)]|]. destruct (s_nodes b) as [|y m]; [split; [discriminate|intros (u & w & _ & [] & _)]|]. set (ys := y :: m).
  destruct (existsb (fun y0 => negb (str_eqb (text_of r x) (text_of r y0))) ys) eqn:E.
  - split; [intros _|reflexivity]. apply existsb_exists in E. destruct E as (w & W & E). exists x, w. split; [left; reflexivity|split; [exact W|]]. intros C. apply eqb_str in C. rewrite C in E. discriminate.
  - assert (S : forall w, In w ys -> text_of r x = text_of r w).
    { intros w W. apply eqb_str. destruct (str_eqb (text_of r x) (text_of r w)) eqn:F; [reflexivity|]. assert (C : existsb (fun y0 => negb (str_eqb (text_of r x) (text_of r y0))) ys = true) by (apply existsb_exists; exists w; split; [exact W|rewrite F; reflexivity]). congruence. }
    rewrite existsb_exists. split.
    + intros (z & Z' & H). exists z, y. split; [right; exact Z'|split; [left; reflexivity|]]. intros C. assert (D : existsb (fun y0 => str_eqb (text_of r z) (text_of r y0)) ys = true) by (apply existsb_exists; exists y; split; [left; reflexivity|apply eqb_str; exact C]). rewrite D in H. discriminate.
    + intros (z & w & [<-|Z'] & W & H); [destruct (H (S w W))|]. exists z. split; [exact Z'|]. destruct (existsb (fun y0 => str_eqb (text_of r z) (text_of r y0)) ys) eqn:F; [|reflexivity]. apply existsb_exists in F. destruct F as (v & V & F). apply eqb_str in F. rewrite F, <- (S v V) in H. destruct (H (S w W)).
Qed.

Lemma exists_iff : forall {A} (p : A -> bool) (P : A -> Prop) l, (forall x, p x = true <-> P x) -> (existsb p l = true <-> exists x, In x l /\ P x).
Proof. intros A p P l H. rewrite existsb_exists. split; intros (x & X & Y); exists x; (split; [exact X|apply H; exact Y]). Qed.
Lemma pair_iff : forall {A B} (P Q : A -> B -> Prop) l m, (forall x y, P x y <-> Q x y) -> (exists x y, In x l /\ In y m /\ P x y) <-> (exists x y, In x l /\ In y m /\ Q x y).
Proof. intros A B P Q l m H. split; intros (x & y & X & Y & R); exists x, y; (split; [exact X|split; [exact Y|apply H; exact R]]). Qed.
Lemma swap_iff : forall {A B} (P : A -> B -> Prop) l m, (exists y x, In y m /\ In x l /\ P x y) <-> (exists x y, In x l /\ In y m /\ P x y).
Proof. intros A B P l m. split; intros (x & y & X & Y & R); exists y, x; auto. Qed.
Lemma bool_eqb : forall a b, Bool.eqb a b = true <-> a = b. Proof. intros a b. apply Bool.eqb_true_iff. Qed.
Lemma bool_neqb : forall a b, negb (Bool.eqb a b) = true <-> a <> b. Proof. intros [] []; cbn; split; congruence. Qed.
Lemma str_neqb : forall a b, negb (str_eqb a b) = true <-> a <> b.
Proof. intros a b. destruct (str_eqb a b) eqn:E; cbn; [apply eqb_str in E; split; congruence|]. split; [intros _ C; apply eqb_str in C; congruence|reflexivity]. Qed.
Lemma bool_numbers : forall a b, numbers OpEq (of_bool a) (of_bool b) <-> a = b.
Proof. intros [] []; cbn; split; congruence. Qed.
Lemma bool_not_numbers : forall a b, numbers OpNe (of_bool a) (of_bool b) <-> a <> b.
Proof. intros [] []; cbn; split; congruence. Qed.
Lemma num_sym : forall op a b, numbers op a b <-> numbers (match op with OpLt => OpGt | OpGt => OpLt | OpLe => OpGe | OpGe => OpLe | o => o end) b a.
Proof. intros op a b. destruct op; cbn; rewrite (compare_sym a b); destruct (SFcompare a b) as [[]|]; cbn; split; try congruence; intros [H|H]; try discriminate; auto. Qed.

Ltac found := eexists; split; [reflexivity|].
Lemma compare_lemma : forall r top op v w, settled op v w -> exists b, compare_values r top op v w = Some b /\ (b = true <-> compares r op v w).
Proof.
  intros r top op v w S. destruct op; destruct v as [a|a|a|a]; destruct w as [b|b|b|b]; cbn [compare_values are_equal are_not_equal is_greater_than is_greater_than_equals is_less_than is_less_than_equals set_and_value_equal set_and_value_not_equal compares option_map settled equality] in *; unfold compare_set_with; try discriminate S.
  (* two sets, relational *)
  all: try (destruct S as [S|[S1 S2]]; [discriminate|]).
  all: try (found; try rewrite <- !truth_ok; cbn [as_bool as_number number strings];
    first [ apply bool_eqb | apply bool_neqb | apply eqb_ok | apply neb_ok | apply ltb_ok | apply leb_ok | apply gtb_ok | apply geb_ok | apply eqb_str | apply str_neqb
          | apply sets_equal | apply sets_not_equal
          | apply exists_iff; intros x; first [ apply eqb_ok | apply neb_ok | apply ltb_ok | apply leb_ok | apply gtb_ok | apply geb_ok | apply eqb_str | apply str_neqb ] ]; fail).
  all: match goal with
    | |- context [compare_node_sets ?r0 ?o ?x ?y] =>
        let c := fresh "c" in let C := fresh "C" in let H := fresh "H" in
        destruct (sets_compare r0 o x y) as (c & C & H); [auto|assumption|assumption|]; exists c; split; [exact C|]; rewrite H; cbn [strings]; unfold node_number
    | _ => idtac end.
  - found. rewrite bool_numbers, bool_eqb. cbn [truth]. change (match s_nodes b with [] => false | _ => true end) with (set_as_bool b). split; congruence.
  - found. apply exists_iff. intros x. rewrite eqb_ok, num_sym. reflexivity.
  - found. apply exists_iff. intros x. rewrite eqb_str. cbn. split; congruence.
  - found. rewrite bool_numbers, bool_eqb. cbn [truth]. change (match s_nodes a with [] => false | _ => true end) with (set_as_bool a). split; congruence.
  - found. rewrite bool_not_numbers, bool_neqb. cbn [truth]. change (match s_nodes b with [] => false | _ => true end) with (set_as_bool b). split; congruence.
  - found. apply exists_iff. intros x. rewrite neb_ok, num_sym. reflexivity.
  - found. apply exists_iff. intros x. rewrite str_neqb. cbn. split; congruence.
  - found. rewrite bool_not_numbers, bool_neqb. cbn [truth]. change (match s_nodes a with [] => false | _ => true end) with (set_as_bool a). split; congruence.
  - apply pair_iff. intros x y. apply ltb_ok.
  - apply pair_iff. intros x y. apply leb_ok.
  - rewrite (swap_iff (fun y x => SFltb (num r (text_of r x)) (num r (text_of r y)) = true)). apply pair_iff. intros x y. apply gtb_ok.
  - rewrite (swap_iff (fun y x => SFleb (num r (text_of r x)) (num r (text_of r y)) = true)). apply pair_iff. intros x y. apply geb_ok.
Qed.
