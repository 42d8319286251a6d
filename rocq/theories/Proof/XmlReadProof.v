From Verif.Model Require Import Base Text.
From Verif.Spec Require Import TextSpec XmlRead.
From Verif.Proof Require Import Tac TextProof SaxProof.

(** * The reader's helpers *)
Lemma starts_app p r : starts p (p ++ r) = Some r.
Proof. induction p as [|x p IH]; [reflexivity|]. cbn. rewrite Z.eqb_refl. exact IH. Qed.
Lemma starts_some p s r : starts p s = Some r -> s = p ++ r.
Proof.
  revert s. induction p as [|x p IH]; intros s H; cbn in H; [cbn; congruence|].
  destruct s as [|c s]; [discriminate|]. destruct (Z.eqb_spec x c) as [->|]; [|discriminate].
  cbn. f_equal. apply IH. exact H.
Qed.

Lemma until_first p x a r : ~ contains (p ++ [x]) (a ++ p) ->
  until (p ++ [x]) (a ++ (p ++ [x]) ++ r) = Some (a, r).
Proof.
  induction a as [|c a IH]; intros H.
  - cbn [app]. destruct ((p ++ [x]) ++ r) as [|y s] eqn:E.
    + destruct p; discriminate.
    + cbn [until]. rewrite <- E, starts_app. reflexivity.
  - cbn [app until].
    destruct (starts (p ++ [x]) (c :: a ++ (p ++ [x]) ++ r)) as [t|] eqn:E.
    + exfalso. apply starts_some in E. apply H.
      assert (L : firstn (length (p ++ [x])) ((c :: a) ++ p) = p ++ [x]).
      { transitivity (firstn (length (p ++ [x])) ((p ++ [x]) ++ t)); [|apply firstn_length_app].
        rewrite <- E.
        replace (c :: a ++ (p ++ [x]) ++ r) with (((c :: a) ++ p) ++ ([x] ++ r))
          by (rewrite <- !app_assoc; reflexivity).
        rewrite (firstn_app (length (p ++ [x])) ((c :: a) ++ p)).
        replace (length (p ++ [x]) - length ((c :: a) ++ p))%nat with 0%nat
          by (rewrite !app_length; cbn [length]; lia).
        cbn [firstn]. rewrite app_nil_r. reflexivity. }
      exists [], (skipn (length (p ++ [x])) ((c :: a) ++ p)). cbn [app].
      transitivity (firstn (length (p ++ [x])) ((c :: a) ++ p)
                    ++ skipn (length (p ++ [x])) ((c :: a) ++ p));
        [symmetry; apply firstn_skipn|rewrite L; reflexivity].
    + rewrite IH; [reflexivity|]. intros (u & v & K). apply H.
      exists (c :: u), v. cbn [app]. f_equal. exact K.
Qed.
Lemma contains_tail p x w : forall s, ~ In x w -> contains (p ++ [x]) (s ++ w) -> contains (p ++ [x]) s.
Proof.
  induction w as [|z w IH] using rev_ind; intros s H C; [rewrite app_nil_r in C; exact C|].
  apply IH; [intros K; apply H, in_or_app; auto|].
  destruct C as (a & b & E).
  destruct b as [|y b _] using rev_ind.
  - rewrite app_nil_r, !app_assoc in E. apply app_inj_tail in E. destruct E as (_ & E).
    exfalso. apply H, in_or_app. right. left. exact E.
  - rewrite !app_assoc in E. apply app_inj_tail in E. destruct E as (E & _).
    exists a, b. rewrite <- !app_assoc in *. exact E.
Qed.
Lemma until_last p x a r : ~ In x p -> ~ contains (p ++ [x]) a ->
  until (p ++ [x]) (a ++ (p ++ [x]) ++ r) = Some (a, r).
Proof.
  intros H C. apply until_first. intros K. apply C. exact (contains_tail p x p a H K).
Qed.
Lemma until_char x a r : ~ In x a -> until [x] (a ++ x :: r) = Some (a, r).
Proof.
  intros H. apply (until_last [] x a r); [intros []|].
  intros (u & v & ->). apply H, in_or_app. right. left. reflexivity.
Qed.

Lemma span_stop f a r : forallb f a = true ->
  match r with [] => True | c :: _ => f c = false end -> span f (a ++ r) = (a, r).
Proof.
  induction a as [|c a IH]; intros H R; cbn [app].
  - destruct r as [|c r]; [reflexivity|]. cbn [span]. rewrite R. reflexivity.
  - cbn in H. bsplit. cbn [span]. rewrite H, IH by assumption. reflexivity.
Qed.
Lemma read_name_app n r : is_name n ->
  match r with [] => True | c :: _ => name_char c = false end ->
  read_name (n ++ r) = Some (n, r).
Proof.
  intros (N & H) R. unfold read_name. rewrite span_stop by assumption.
  destruct n; [congruence|reflexivity].
Qed.
Lemma skip_white_id r : match r with [] => True | c :: _ => white c = false end -> skip_white r = r.
Proof.
  intros H. unfold skip_white. destruct r as [|c r]; [reflexivity|]. cbn [span].
  rewrite H. reflexivity.
Qed.
Lemma skip_white_one r : match r with [] => True | c :: _ => white c = false end ->
  skip_white (32 :: r) = r.
Proof.
  intros H. unfold skip_white. change (32 :: r) with ([32] ++ r). rewrite (span_stop white [32] r); [reflexivity|reflexivity|exact H].
Qed.
Lemma name_not_white n c r : is_name n -> n = c :: r -> white c = false /\ name_char c = true.
Proof.
  intros (_ & H) ->. cbn in H. bsplit. split; [|assumption].
  unfold name_char in H. bsplit. destruct (white c); [discriminate|reflexivity].
Qed.
Lemma name_no n x : is_name n -> name_char x = false -> ~ In x n.
Proof.
  intros (_ & H) E K. rewrite forallb_forall in H. apply H in K. congruence.
Qed.

Lemma text_is_refl a : text_is a a = true.
Proof. unfold text_is. destruct (list_eq_dec Z.eq_dec a a); [reflexivity|congruence]. Qed.
Lemma text_is_true a b : text_is a b = true -> a = b.
Proof. unfold text_is. destruct (list_eq_dec Z.eq_dec a b); [auto|discriminate]. Qed.

(** * Rendered markup *)
Inductive raw :=
  | RStart (n : list Z) (atts : list (list Z * list Z)) (e : bool)
  | REnd (n : list Z) | RChar (c : Z) | RCData (s : list Z)
  | RComment (s : list Z) | RPI (t d : list Z)
  | RWide (t w d : list Z). (* a processing instruction with this white space before its data *)
Definition render_attr (x : list Z * list Z) : list Z :=
  [32] ++ fst x ++ [61; 34] ++ attribute_escape (snd x) ++ [34].
Definition render_attrs (l : list (list Z * list Z)) : list Z := flat_map render_attr l.
Definition render_pi (t d : list Z) : list Z :=
  [60; 63] ++ t ++ (match d with [] => [] | _ => [32] ++ d end) ++ [63; 62].
Definition render (k : raw) : list Z :=
  match k with
  | RStart n atts e => [60] ++ n ++ render_attrs atts ++ (if e then [47; 62] else [62])
  | REnd n => [60; 47] ++ n ++ [62]
  | RChar c => text_escape1 c
  | RCData s => [60; 33; 91; 67; 68; 65; 84; 65; 91] ++ s ++ [93; 93; 62]
  | RComment s => [60; 33; 45; 45] ++ s ++ [45; 45; 62]
  | RPI t d => render_pi t d
  | RWide t w d => [60; 63] ++ t ++ w ++ d ++ [63; 62]
  end.
Definition piece_of (k : raw) : piece :=
  match k with
  | RStart n atts e => KStart n atts e
  | REnd n => KEnd n
  | RChar c => KText [c]
  | RCData s => KText s
  | RComment s => KComment s
  | RPI t d => KPI t d
  | RWide t w d => KPI t d
  end.
Definition attrs_ok (atts : list (list Z * list Z)) : Prop :=
  Forall is_name (map fst atts) /\ NoDup (map fst atts).
Definition raw_ok (k : raw) : Prop :=
  match k with
  | RStart n atts _ => is_name n /\ attrs_ok atts
  | REnd n => is_name n
  | RChar c => c <> 13
  | RCData s => cdata_ok s
  | RComment s => comment_ok s
  | RPI t d => pi_ok t d
  | RWide t w d => pi_ok t d /\ w <> [] /\ forallb white w = true /\ ~ In 13 w
  end.

Lemma attr_value_escape v : attr_value (attribute_escape v) = Some v.
Proof. unfold attr_value. destruct (attr_expand v) as (l & -> & M). congruence. Qed.
Lemma closes_white r : closes r = true -> match r with [] => True | c :: _ => white c = false end.
Proof.
  destruct r as [|c r]; [auto|]. unfold closes, white. intros H. lia.
Qed.
Lemma read_attrs_render atts : forall fuel r, attrs_ok atts -> closes r = true ->
  (length (render_attrs atts) < fuel)%nat ->
  read_attrs fuel (render_attrs atts ++ r) = Some (atts, r).
Proof.
  induction atts as [|(n, v) atts IH]; intros fuel r (N & D) C L.
  - destruct fuel; [cbn in L; lia|]. cbn [render_attrs flat_map app read_attrs].
    rewrite (skip_white_id r) by (apply closes_white, C). rewrite C. reflexivity.
  - cbn [map fst] in N, D. inversion N as [|? ? Nn N']; subst. inversion D as [|? ? Dn D']; subst.
    destruct fuel as [|fuel]; [cbn in L; lia|].
    change (render_attrs ((n, v) :: atts)) with (render_attr (n, v) ++ render_attrs atts).
    change (render_attrs ((n, v) :: atts)) with (render_attr (n, v) ++ render_attrs atts) in L.
    unfold render_attr at 1 in L. unfold render_attr at 1. cbn [fst snd app] in *.
    rewrite <- !app_assoc. cbn [app]. rewrite <- app_assoc. cbn [app].
    set (rest := attribute_escape v ++ 34 :: render_attrs atts ++ r).
    destruct n as [|c n]; [destruct Nn; congruence|].
    destruct (name_not_white (c :: n) c n Nn eq_refl) as (Wc & NCc).
    change (read_attrs (S fuel) (32 :: (c :: n) ++ 61 :: 34 :: rest))
      with (if closes (skip_white (32 :: (c :: n) ++ 61 :: 34 :: rest))
            then Some ([], skip_white (32 :: (c :: n) ++ 61 :: 34 :: rest))
            else match read_name (skip_white (32 :: (c :: n) ++ 61 :: 34 :: rest)) with
            | Some (n, r) =>
                match skip_white r with
                | 61 :: r2 =>
                    match skip_white r2 with
                    | q :: r3 =>
                        if (q =? 34) || (q =? 39) then
                          match until [q] r3 with
                          | Some (v, r4) =>
                              match attr_value v, read_attrs fuel r4 with
                              | Some v', Some (l, r5) =>
                                  if existsb (fun x => text_is (fst x) n) l then None
                                  else Some ((n, v') :: l, r5)
                              | _, _ => None
                              end
                          | None => None
                          end
                        else None
                    | [] => None
                    end
                | _ => None
                end
            | None => None
            end).
    rewrite skip_white_one by exact Wc.
    assert (closes ((c :: n) ++ 61 :: 34 :: rest) = false) as ->.
    { cbn [app closes]. unfold name_char in NCc. bsplit. cbn [existsb] in *. lia. }
    rewrite read_name_app by (try exact Nn; reflexivity).
    rewrite (skip_white_id (61 :: 34 :: rest)) by reflexivity.
    rewrite (skip_white_id (34 :: rest)) by reflexivity.
    change ((34 =? 34) || (34 =? 39)) with true. cbv iota. subst rest.
    rewrite until_char by (apply attr_escape_no; cbn; auto 9).
    rewrite attr_value_escape.
    rewrite IH; [|split; assumption|exact C|].
    + destruct (existsb _ atts) eqn:X; [|reflexivity].
      apply existsb_exists in X. destruct X as ((m, w) & I & X). cbn in X. apply text_is_true in X.
      subst m. exfalso. apply Dn. apply (in_map fst) in I. exact I.
    + rewrite app_comm_cons, !app_length in L. cbn [length] in L. rewrite !app_length in L. lia.
Qed.

Definition safe (s : list Z) : Prop := starts [93; 62] s = None /\ starts [62] s = None.
Lemma safe_nil : safe [].
Proof. split; reflexivity. Qed.
Lemma safe_lt s : safe (60 :: s).
Proof. split; reflexivity. Qed.
Lemma safe_render k r : safe r -> safe (render k ++ r).
Proof.
  intros S. destruct k; try apply safe_lt. cbn [render]. unfold text_escape1.
  destruct (Z.eqb_spec c 60); [split; reflexivity|].
  destruct (Z.eqb_spec c 62); [split; reflexivity|].
  destruct (Z.eqb_spec c 38); [split; reflexivity|].
  cbn [app]. destruct S as (S1 & S2). split; cbn [starts].
  - destruct (93 =? c); [exact S2|reflexivity].
  - destruct (Z.eqb_spec 62 c); [congruence|reflexivity].
Qed.
Lemma safe_all rs : safe (flat_map render rs).
Proof. induction rs; [exact safe_nil|]. cbn [flat_map]. apply safe_render. exact IHrs. Qed.

Lemma read_start_piece c r : name_char c = true -> read_piece (60 :: c :: r) = read_start (c :: r).
Proof.
  intros H. unfold name_char in H. bsplit. cbn [existsb] in *.
  assert (33 <> c /\ 63 <> c /\ 47 <> c) as (A & B & C) by lia.
  apply Z.eqb_neq in A, B, C. unfold read_piece. cbn [starts].
  change (60 =? 60) with true. cbv iota. rewrite A, B, C. reflexivity.
Qed.
Lemma read_pi_render t d r : pi_ok t d ->
  read_pi (t ++ (match d with [] => [] | _ => [32] ++ d end) ++ [63; 62] ++ r) = Some (KPI t d, r).
Proof.
  intros (N & V & _ & C & W). unfold read_pi.
  destruct d as [|x d].
  - cbn [app]. rewrite (read_name_app t (63 :: 62 :: r)) by (try exact N; reflexivity).
    rewrite V. reflexivity.
  - rewrite read_name_app by (try exact N; reflexivity). rewrite V.
    change (starts [63; 62] (([32] ++ x :: d) ++ [63; 62] ++ r)) with (@None (list Z)). cbv iota.
    change (([32] ++ x :: d) ++ [63; 62] ++ r) with (32 :: (x :: d) ++ [63; 62] ++ r).
    change (white 32) with true. cbv iota.
    rewrite skip_white_one by exact W.
    change (until [63; 62] ((x :: d) ++ [63; 62] ++ r))
      with (until ([63] ++ [62]) ((x :: d) ++ ([63] ++ [62]) ++ r)).
    rewrite until_last; [reflexivity|intros [|[]]; discriminate|exact C].
Qed.
Lemma read_render k r : raw_ok k -> safe r -> read_piece (render k ++ r) = Some (piece_of k, r).
Proof.
  intros O S. destruct k; cbn [raw_ok render piece_of] in *.
  - destruct O as (N & A). pose proof N as (N0 & _). destruct n as [|c n]; [congruence|].
    destruct (name_not_white _ c n N eq_refl) as (Wc & NCc).
    cbn [app]. rewrite read_start_piece by exact NCc.
    rewrite <- !app_assoc.
    change (c :: n ++ render_attrs atts ++ (if e then [47; 62] else [62]) ++ r)
      with ((c :: n) ++ render_attrs atts ++ (if e then [47; 62] else [62]) ++ r).
    unfold read_start. rewrite read_name_app; [|exact N|].
    2: destruct atts; [destruct e; reflexivity|reflexivity].
    rewrite read_attrs_render; [|exact A|destruct e; reflexivity|rewrite app_length; lia].
    destruct e; reflexivity.
  - change (([60; 47] ++ n ++ [62]) ++ r) with (60 :: 47 :: (n ++ [62]) ++ r).
    rewrite <- app_assoc. change (read_piece (60 :: 47 :: n ++ [62] ++ r)) with (read_end (n ++ [62] ++ r)).
    unfold read_end. rewrite read_name_app by (try exact O; reflexivity).
    rewrite skip_white_id by reflexivity. reflexivity.
  - unfold text_escape1.
    destruct (Z.eqb_spec c 60) as [->|N1]; [reflexivity|].
    destruct (Z.eqb_spec c 62) as [->|N2]; [reflexivity|].
    destruct (Z.eqb_spec c 38) as [->|N3]; [reflexivity|].
    cbn [app]. unfold read_piece. cbn [starts].
    rewrite (proj2 (Z.eqb_neq 60 c)) by congruence.
    rewrite (proj2 (Z.eqb_neq c 60)) by congruence.
    rewrite (proj2 (Z.eqb_neq c 38)) by congruence.
    destruct (93 =? c); [|reflexivity]. destruct S as (S & _). cbn [starts] in S. rewrite S. reflexivity.
  - rewrite <- !app_assoc.
    change (read_piece ([60; 33; 91; 67; 68; 65; 84; 65; 91] ++ s ++ [93; 93; 62] ++ r))
      with (read_cdata (s ++ [93; 93; 62] ++ r)).
    destruct O as (_ & C). unfold read_cdata.
    change (until [93; 93; 62] (s ++ [93; 93; 62] ++ r))
      with (until ([93; 93] ++ [62]) (s ++ ([93; 93] ++ [62]) ++ r)).
    rewrite until_last; [reflexivity| |exact C].
    intros [|[|[]]]; discriminate.
  - rewrite <- !app_assoc.
    change (read_piece ([60; 33; 45; 45] ++ s ++ [45; 45; 62] ++ r))
      with (read_comment (s ++ [45; 45] ++ (62 :: r))).
    destruct O as (_ & C). unfold read_comment.
    change (until [45; 45] (s ++ [45; 45] ++ 62 :: r))
      with (until ([45] ++ [45]) (s ++ ([45] ++ [45]) ++ 62 :: r)).
    rewrite until_first; [reflexivity|exact C].
  - unfold render_pi. rewrite <- !app_assoc.
    change (read_piece ([60; 63] ++ ?x)) with (read_pi x).
    apply read_pi_render. exact O.
  - destruct O as ((N & V & _ & C & H) & W0 & W & _). rewrite <- !app_assoc.
    change (read_piece ([60; 63] ++ ?x)) with (read_pi x). unfold read_pi.
    destruct w as [|c w]; [congruence|]. cbn [forallb] in W. bsplit.
    assert (c <> 63) by (intros ->; discriminate).
    rewrite (read_name_app t ((c :: w) ++ d ++ [63; 62] ++ r)); [|exact N|cbn [app]; unfold name_char; rewrite H0; reflexivity].
    rewrite V. cbn [app starts]. rewrite (proj2 (Z.eqb_neq 63 c)) by congruence. rewrite H0.
    assert (SW : skip_white (c :: w ++ d ++ 63 :: 62 :: r) = d ++ [63; 62] ++ r).
    { unfold skip_white. change (c :: w ++ d ++ 63 :: 62 :: r) with ((c :: w) ++ d ++ [63; 62] ++ r).
      rewrite span_stop; [reflexivity|cbn [forallb]; rewrite H0; assumption|destruct d; [reflexivity|exact H]]. }
    rewrite SW. change (until [63; 62] (d ++ [63; 62] ++ r)) with (until ([63] ++ [62]) (d ++ ([63] ++ [62]) ++ r)).
    rewrite until_last; [reflexivity|intros [|[]]; discriminate|exact C].
Qed.

Fixpoint nest (open : list (list Z)) (ks : list piece) : option (list tok) :=
  match ks with
  | [] => match open with [] => Some [] | _ => None end
  | k :: r => match enter open k with
              | Some (o, l) => match nest o r with Some l' => Some (l ++ l') | None => None end
              | None => None
              end
  end.
Lemma render_nonempty k : render k <> [].
Proof.
  destruct k; try discriminate. cbn [render]. unfold text_escape1.
  destruct (c =? 60), (c =? 62), (c =? 38); discriminate.
Qed.
Lemma read_all_render rs : forall fuel open, Forall raw_ok rs ->
  (length (flat_map render rs) < fuel)%nat ->
  read_all fuel open (flat_map render rs) = nest open (map piece_of rs).
Proof.
  induction rs as [|k rs IH]; intros fuel open O L.
  - destruct fuel; [cbn in L; lia|]. reflexivity.
  - inversion O; subst. destruct fuel as [|fuel]; [lia|].
    cbn [flat_map map nest]. cbn [flat_map] in L.
    pose proof (render_nonempty k) as NE.
    pose proof (read_render k (flat_map render rs) H1 (safe_all rs)) as R.
    destruct (render k) as [|c t] eqn:E; [congruence|]. cbn [app] in R, L |- *.
    cbn [read_all]. rewrite R. destruct (enter open (piece_of k)) as [(o, l)|]; [|reflexivity].
    rewrite IH; [reflexivity|assumption|]. cbn [length] in L. rewrite app_length in L. lia.
Qed.

(** No carriage return in rendered markup. *)
Lemma render_attrs_cr atts : Forall is_name (map fst atts) -> ~ In 13 (render_attrs atts).
Proof.
  intros N H. apply in_flat_map in H. destruct H as ((n, v) & I & H).
  rewrite Forall_forall in N. apply (in_map fst) in I. apply N in I.
  unfold render_attr in H. cbn [fst snd] in H. repeat (apply in_app_or in H; destruct H as [H|H]).
  - cbn in H. lia.
  - revert H. apply name_no; [exact I|reflexivity].
  - cbn in H. lia.
  - revert H. apply attr_escape_no. cbn; auto 9.
  - cbn in H. lia.
Qed.
Lemma render_cr k : raw_ok k -> ~ In 13 (render k).
Proof.
  intros O H. destruct k; cbn [render raw_ok] in *.
  - repeat (apply in_app_or in H; destruct H as [H|H]).
    + cbn in H; lia.
    + revert H. apply name_no; [apply O|reflexivity].
    + revert H. apply render_attrs_cr. apply O.
    + destruct e; cbn in H; lia.
  - repeat (apply in_app_or in H; destruct H as [H|H]); [cbn in H; lia| |cbn in H; lia].
    revert H. apply name_no; [exact O|reflexivity].
  - apply text_escape1_in in H. cbn in H. lia.
  - repeat (apply in_app_or in H; destruct H as [H|H]); try (cbn in H; lia). exact (proj1 O H).
  - repeat (apply in_app_or in H; destruct H as [H|H]); try (cbn in H; lia). exact (proj1 O H).
  - destruct O as (N & _ & C & _). unfold render_pi in H.
    repeat (apply in_app_or in H; destruct H as [H|H]); try (cbn in H; lia).
    + revert H. apply name_no; [exact N|reflexivity].
    + destruct d; [destruct H|]. apply in_app_or in H. destruct H as [H|H]; [cbn in H; lia|].
      apply C. exact H.
  - destruct O as ((N & _ & C & _) & _ & _ & W). repeat (apply in_app_or in H; destruct H as [H|H]); try (cbn in H; lia).
    + revert H. apply name_no; [exact N|reflexivity].
    + exact (W H).
    + exact (C H).
Qed.
Lemma render_all_cr rs : Forall raw_ok rs -> ~ In 13 (flat_map render rs).
Proof.
  intros O H. apply in_flat_map in H. destruct H as (k & I & H).
  rewrite Forall_forall in O. exact (render_cr k (O k I) H).
Qed.

(** Texts that render tokens, up to characters that [f] drops. *)
Definition fine (f : Z -> bool) (open : list (list Z)) (toks : list tok) (text : list Z) : Prop :=
  exists rs l, text = flat_map render rs /\ Forall raw_ok rs
    /\ nest open (map piece_of rs) = Some l
    /\ forall run, join_acc run (map (keep_text f) l) = join_acc run (map (keep_text f) toks).
Lemma fine_nil f : fine f [] [] [].
Proof. exists [], []. repeat split; constructor. Qed.
Lemma join_app l0 : forall l1 l2 f run,
  (forall run, join_acc run (map (keep_text f) l1) = join_acc run (map (keep_text f) l2)) ->
  join_acc run (map (keep_text f) (l0 ++ l1)) = join_acc run (map (keep_text f) (l0 ++ l2)).
Proof.
  induction l0 as [|t l0 IH]; intros l1 l2 f run H; [apply H|].
  cbn [app map]. destruct t; cbn [keep_text join_acc];
    try (f_equal; f_equal; apply IH; exact H). apply IH. exact H.
Qed.
Lemma fine_cons f k open open' l0 toks text : raw_ok k -> enter open (piece_of k) = Some (open', l0) ->
  fine f open' toks text -> fine f open (l0 ++ toks) (render k ++ text).
Proof.
  intros O E (rs & l & -> & F & N & J). exists (k :: rs), (l0 ++ l). repeat split.
  - constructor; assumption.
  - cbn [map nest]. rewrite E, N. reflexivity.
  - intros run. apply join_app. exact J.
Qed.
Lemma fine_text f open toks s : forall text, ~ In 13 s -> fine f open toks text ->
  fine f open (TText s :: toks) (text_escape s ++ text).
Proof.
  induction s as [|c s IH]; intros text H F.
  - destruct F as (rs & l & E & O & N & J). exists rs, l. repeat split; try assumption.
    intros run. cbn [map keep_text filter join_acc]. rewrite app_nil_r. apply J.
  - change (text_escape (c :: s)) with (text_escape1 c ++ text_escape s). rewrite <- app_assoc.
    assert (H1 : c <> 13) by (intros ->; apply H; left; reflexivity).
    assert (H2 : ~ In 13 s) by (intros K; apply H; right; exact K).
    pose proof (fine_cons f (RChar c) open open [TText [c]] _ _ H1 eq_refl (IH text H2 F)) as G.
    destruct G as (rs & l & E & O & N & J). exists rs, l. repeat split; try assumption.
    intros run. rewrite J. cbn [app map keep_text join_acc]. rewrite <- app_assoc.
    f_equal. f_equal. cbn [filter]. destruct (f c); reflexivity.
Qed.
(** White space that [f] drops. *)
Lemma white_escape s : forallb white s = true -> text_escape s = s.
Proof.
  induction s as [|c s IH]; intros H; [reflexivity|]. cbn in H. bsplit.
  change (text_escape (c :: s)) with (text_escape1 c ++ text_escape s). rewrite IH by assumption.
  unfold text_escape1. unfold white in H.
  destruct (Z.eqb_spec c 60); [lia|]. destruct (Z.eqb_spec c 62); [lia|].
  destruct (Z.eqb_spec c 38); [lia|]. reflexivity.
Qed.
Lemma fine_white f open toks ws text : forallb white ws = true -> ~ In 13 ws ->
  filter f ws = [] -> fine f open toks text -> fine f open toks (ws ++ text).
Proof.
  intros W C K F. rewrite <- (white_escape ws W).
  destruct (fine_text f open toks ws text C F) as (rs & l & E & O & N & J).
  exists rs, l. repeat split; try assumption. intros run. rewrite J.
  cbn [map keep_text join_acc]. rewrite K, app_nil_r. reflexivity.
Qed.

Lemma join_keep f l : forall run run0, join_acc run0 (map (keep_text f) (join_acc run l))
  = join_acc (run0 ++ filter f run) (map (keep_text f) l).
Proof.
  induction l as [|t l IH]; intros run run0.
  - cbn [join_acc map]. destruct run; cbn [text_tok map keep_text join_acc filter].
    + rewrite app_nil_r. reflexivity.
    + reflexivity.
  - destruct t; cbn [join_acc map keep_text].
    2, 4, 5, 1: destruct run; cbn [text_tok map keep_text join_acc filter app];
      rewrite ?app_nil_r, ?IH; reflexivity.
    rewrite IH, filter_app, app_assoc. reflexivity.
Qed.
Lemma keep_all l : map (keep_text (fun _ => true)) l = l.
Proof.
  assert (F : forall s : list Z, filter (fun _ => true) s = s)
    by (induction s as [|c s IH]; [reflexivity|cbn; rewrite IH; reflexivity]).
  induction l as [|t l IH]; [reflexivity|]. cbn [map]. rewrite IH.
  destruct t; cbn [keep_text]; rewrite ?F; reflexivity.
Qed.
Lemma join_join l : join (join l) = join l.
Proof.
  unfold join. rewrite <- (keep_all (join_acc [] l)) at 1. rewrite join_keep, keep_all. reflexivity.
Qed.
Lemma fine_read f toks text : fine f [] toks text ->
  exists l, read_content_text text = Some l /\ join l = l
            /\ join (map (keep_text f) l) = join (map (keep_text f) toks).
Proof.
  intros (rs & l & -> & O & N & J). unfold read_content_text.
  rewrite read_all_render by (try exact O; lia). rewrite N. exists (join l).
  split; [reflexivity|]. split; [apply join_join|].
  unfold join at 1 3. rewrite <- J. unfold join. rewrite join_keep. reflexivity.
Qed.
