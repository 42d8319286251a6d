From Verif.Model Require Import Base Text Uri.
From Verif.Spec Require Import UriSpec.
From Verif.Proof Require Import Tac ConvertProof TextProof UriProof.

Lemma path_of_app a b : path_of (a ++ b) = path_of a ++ path_of b.
Proof. unfold path_of. rewrite map_app, concat_app. reflexivity. Qed.
Lemma path_of_cons s r : path_of (s :: r) = 47 :: s ++ path_of r.
Proof. reflexivity. Qed.
Lemma path_of_one s : path_of [s] = 47 :: s.
Proof. cbn. rewrite app_nil_r. reflexivity. Qed.
Lemma is_seg_true a b : is_seg a b = true <-> a = b.
Proof. unfold is_seg. destruct (list_eq_dec Z.eq_dec a b); split; congruence. Qed.
Lemma is_seg_false a b : is_seg a b = false <-> a <> b.
Proof. unfold is_seg. destruct (list_eq_dec Z.eq_dec a b); split; congruence. Qed.

Lemma skipn_exact {A} (a b : list A) : skipn (length a) (a ++ b) = b.
Proof. rewrite skipn_app, skipn_all, Nat.sub_diag. reflexivity. Qed.
Lemma find_sub_at pat a b : find_sub pat (a ++ b) (length a) = scan_sub pat b (length a).
Proof.
  unfold find_sub. rewrite app_length.
  destruct (Nat.ltb_spec (length a + length b) (length a)); [lia|].
  rewrite skipn_exact. reflexivity.
Qed.

Lemma scan_skip p pat s : forall t pos, slash_free s -> p = 47 :: pat ->
  scan_sub p (s ++ t) pos = scan_sub p t (pos + length s).
Proof.
  induction s as [|c s IH]; intros t pos H E; cbn [app length]; [rewrite Nat.add_0_r; reflexivity|].
  subst p. cbn [scan_sub is_prefix].
  assert ((47 =? c) = false) as -> by (apply Z.eqb_neq; intros K; apply H; left; congruence).
  cbn [andb]. rewrite IH; [f_equal; lia| |reflexivity]. intros K. apply H. right. exact K.
Qed.

Lemma path_head r : path_of r = [] \/ exists t, path_of r = 47 :: t.
Proof. destruct r as [|s r]; [left; reflexivity|right]. eexists. apply path_of_cons. Qed.

Lemma scan_dotdot s r pos : slash_free s ->
  scan_sub dotdot_pat (path_of (s :: r)) pos =
  if is_seg s dotdot && match r with [] => false | _ => true end then Some pos
  else scan_sub dotdot_pat (path_of r) (pos + S (length s)).
Proof.
  intros H. rewrite path_of_cons.
  assert (E : is_prefix dotdot_pat (47 :: s ++ path_of r) =
              is_seg s dotdot && match r with [] => false | _ => true end).
  { unfold dotdot_pat. cbn [is_prefix]. change (47 =? 47) with true. cbn [andb].
    destruct s as [|a [|b [|c s]]]; cbn [app is_prefix].
    - change (is_seg [] dotdot) with false. cbn [andb].
      destruct (path_head r) as [->|(t & ->)]; reflexivity.
    - destruct (46 =? a); cbn [andb].
      + assert (is_seg [a] dotdot = false) as -> by (apply is_seg_false; discriminate).
        destruct (path_head r) as [->|(t & ->)]; reflexivity.
      + assert (is_seg [a] dotdot = false) as -> by (apply is_seg_false; discriminate).
        reflexivity.
    - destruct (Z.eqb_spec 46 a) as [<-|Na], (Z.eqb_spec 46 b) as [<-|Nb]; cbn [andb].
      + change (is_seg [46; 46] dotdot) with true. cbn [andb].
        destruct r as [|x r]; [reflexivity|]. rewrite path_of_cons. reflexivity.
      + assert (is_seg [46; b] dotdot = false) as ->
          by (apply is_seg_false; unfold dotdot; congruence). reflexivity.
      + assert (is_seg [a; 46] dotdot = false) as ->
          by (apply is_seg_false; unfold dotdot; congruence). reflexivity.
      + assert (is_seg [a; b] dotdot = false) as ->
          by (apply is_seg_false; unfold dotdot; congruence). reflexivity.
    - assert (is_seg (a :: b :: c :: s) dotdot = false) as ->
        by (apply is_seg_false; discriminate).
      assert ((47 =? c) = false) as ->
        by (apply Z.eqb_neq; intros K; apply H; right; right; left; congruence).
      rewrite !andb_false_r. reflexivity. }
  cbn [scan_sub]. rewrite E.
  destruct (is_seg s dotdot && _); [reflexivity|].
  rewrite (scan_skip dotdot_pat [46; 46; 47]) by (assumption || reflexivity).
  f_equal. lia.
Qed.

Lemma scan_dot s r pos : slash_free s ->
  scan_sub dot_pat (path_of (s :: r)) pos =
  if is_seg s dot && match r with [] => false | _ => true end then Some pos
  else scan_sub dot_pat (path_of r) (pos + S (length s)).
Proof.
  intros H. rewrite path_of_cons.
  assert (E : is_prefix dot_pat (47 :: s ++ path_of r) =
              is_seg s dot && match r with [] => false | _ => true end).
  { unfold dot_pat. cbn [is_prefix]. change (47 =? 47) with true. cbn [andb].
    destruct s as [|a [|c s]]; cbn [app is_prefix].
    - change (is_seg [] dot) with false. cbn [andb].
      destruct (path_head r) as [->|(t & ->)]; reflexivity.
    - destruct (Z.eqb_spec 46 a) as [<-|Na]; cbn [andb].
      + change (is_seg [46] dot) with true. cbn [andb].
        destruct r as [|x r]; [reflexivity|]. rewrite path_of_cons. reflexivity.
      + assert (is_seg [a] dot = false) as ->
          by (apply is_seg_false; unfold dot; congruence). reflexivity.
    - assert (is_seg (a :: c :: s) dot = false) as ->
        by (apply is_seg_false; discriminate).
      assert ((47 =? c) = false) as ->
        by (apply Z.eqb_neq; intros K; apply H; right; left; congruence).
      rewrite !andb_false_r. reflexivity. }
  cbn [scan_sub]. rewrite E.
  destruct (is_seg s dot && _); [reflexivity|].
  rewrite (scan_skip dot_pat [46; 47]) by (assumption || reflexivity).
  f_equal. lia.
Qed.

Lemma rfind_last_none x s : ~ In x s -> rfind_last x s = None.
Proof.
  induction s as [|c s IH]; intros H; [reflexivity|]. cbn [rfind_last].
  rewrite IH by (intros K; apply H; right; exact K).
  assert ((c =? x) = false) as -> by (apply Z.eqb_neq; intros K; apply H; left; exact K).
  reflexivity.
Qed.
Lemma rfind_last_app x a b : ~ In x b -> rfind_last x (a ++ x :: b) = Some (length a).
Proof.
  intros H. induction a as [|c a IH]; cbn [app rfind_last length].
  - rewrite rfind_last_none by exact H. rewrite Z.eqb_refl. reflexivity.
  - rewrite IH. reflexivity.
Qed.

Lemma dotdot_loop_unfold fuel path from :
  dotdot_loop fuel path from =
  match find_sub dotdot_pat path from with
  | None => Val (Some path)
  | Some dots =>
      match fuel with
      | O => NoFuel
      | S fuel' =>
          match (match dots with O => Some O | S d => rfind slash path d end) with
          | None => Val None
          | Some ps => dotdot_loop fuel' (erase path ps (dots + 3 - ps)) ps
          end
      end
  end.
Proof. destruct fuel; reflexivity. Qed.
Lemma dotdot_loop_from fuel path f1 f2 :
  find_sub dotdot_pat path f1 = find_sub dotdot_pat path f2 ->
  dotdot_loop fuel path f1 = dotdot_loop fuel path f2.
Proof. intros E. rewrite (dotdot_loop_unfold fuel path f1), E, <- dotdot_loop_unfold. reflexivity. Qed.

Lemma drop_dotdot_step st s r : (is_seg s dotdot && match r with [] => false | _ => true end) = false ->
  drop_dotdot st (s :: r) = drop_dotdot (st ++ [s]) r.
Proof.
  intros H. destruct r as [|x r]; [reflexivity|]. rewrite andb_true_r in H.
  cbn [drop_dotdot]. rewrite H. reflexivity.
Qed.

Lemma erase_mid (a b c : str) : erase (a ++ b ++ c) (length a) (length b) = a ++ c.
Proof.
  unfold erase. rewrite firstn_length_app. f_equal.
  rewrite app_assoc, <- app_length. apply skipn_exact.
Qed.

Lemma dotdot_loop_spec rel : forall fuel st, (length rel <= fuel)%nat ->
  Forall slash_free st -> Forall slash_free rel ->
  dotdot_loop fuel (path_of st ++ path_of rel) (length (path_of st))
  = Val (Some (path_of (drop_dotdot st rel))).
Proof.
  induction rel as [|s rel IH]; intros fuel st L HS HR.
  - rewrite dotdot_loop_unfold, find_sub_at. cbn. rewrite app_nil_r. reflexivity.
  - inversion HR as [|? ? Hs HR']; subst.
    destruct (is_seg s dotdot && match rel with [] => false | _ => true end) eqn:E.
    + rewrite dotdot_loop_unfold, find_sub_at, scan_dotdot, E by assumption.
      apply andb_true_iff in E. destruct E as (E1 & E2). apply is_seg_true in E1. subst s.
      destruct fuel as [|fuel]; [cbn in L; lia|]. cbn [length] in L.
      destruct rel as [|r0 rel]; [discriminate|].
      replace (drop_dotdot st (dotdot :: r0 :: rel)) with (drop_dotdot (removelast st) (r0 :: rel))
        by reflexivity.
      destruct st as [|x st _] using rev_ind.
      * cbn [path_of map concat length app].
        change (erase (47 :: dotdot ++ path_of (r0 :: rel)) 0 (0 + 3 - 0))
          with (path_of (r0 :: rel)).
        apply (IH fuel []); [lia|constructor|assumption].
      * rewrite removelast_last. apply Forall_app in HS. destruct HS as (HS & HX).
        inversion HX as [|? ? Hx _]; subst.
        rewrite path_of_app, path_of_one.
        assert (LL : length (path_of st ++ 47 :: x) = S (length (path_of st) + length x)).
        { rewrite app_length. cbn [length]. lia. }
        rewrite LL. unfold rfind.
        replace (length (path_of st) + length x + 1)%nat with (length (path_of st ++ 47 :: x))
          by lia.
        rewrite firstn_length_app. change slash with 47.
        rewrite rfind_last_app by exact Hx.
        replace (S (length (path_of st) + length x) + 3 - length (path_of st))%nat
          with (length (47 :: x ++ [47; 46; 46])) by (cbn [length]; rewrite app_length; cbn [length]; lia).
        replace ((path_of st ++ 47 :: x) ++ path_of (dotdot :: r0 :: rel))
          with (path_of st ++ (47 :: x ++ [47; 46; 46]) ++ path_of (r0 :: rel)).
        2:{ rewrite <- !app_assoc. cbn [app]. rewrite <- app_assoc. reflexivity. }
        rewrite erase_mid. apply IH; [lia|assumption|assumption].
    + rewrite drop_dotdot_step by exact E.
      rewrite <- (IH fuel (st ++ [s])) by
        (cbn in L; try lia; try assumption; apply Forall_app; auto).
      rewrite path_of_app, path_of_one.
      replace ((path_of st ++ 47 :: s) ++ path_of rel) with (path_of st ++ path_of (s :: rel))
        by (rewrite path_of_cons, <- app_assoc; reflexivity).
      apply dotdot_loop_from. rewrite find_sub_at, scan_dotdot, E by assumption.
      rewrite path_of_cons.
      replace (path_of st ++ 47 :: s ++ path_of rel) with ((path_of st ++ 47 :: s) ++ path_of rel)
        by (rewrite <- app_assoc; reflexivity).
      rewrite find_sub_at. f_equal. rewrite app_length. reflexivity.
Qed.

Lemma dot_loop_unfold fuel path from :
  dot_loop fuel path from =
  match find_sub dot_pat path from with
  | None => Val path
  | Some d => match fuel with O => NoFuel | S fuel' => dot_loop fuel' (erase path d 2) d end
  end.
Proof. destruct fuel; reflexivity. Qed.
Lemma dot_loop_from fuel path f1 f2 :
  find_sub dot_pat path f1 = find_sub dot_pat path f2 ->
  dot_loop fuel path f1 = dot_loop fuel path f2.
Proof. intros E. rewrite (dot_loop_unfold fuel path f1), E, <- dot_loop_unfold. reflexivity. Qed.

Lemma dot_loop_spec rel : forall fuel st, (length rel <= fuel)%nat -> Forall slash_free rel ->
  dot_loop fuel (path_of st ++ path_of rel) (length (path_of st))
  = Val (path_of (st ++ drop_dot rel)).
Proof.
  induction rel as [|s rel IH]; intros fuel st L HR.
  - rewrite dot_loop_unfold, find_sub_at. cbn. rewrite !app_nil_r. reflexivity.
  - inversion HR as [|? ? Hs HR']; subst.
    destruct (is_seg s dot && match rel with [] => false | _ => true end) eqn:E.
    + rewrite dot_loop_unfold, find_sub_at, scan_dot, E by assumption.
      apply andb_true_iff in E. destruct E as (E1 & E2). apply is_seg_true in E1. subst s.
      destruct fuel as [|fuel]; [cbn in L; lia|]. cbn [length] in L.
      destruct rel as [|r0 rel]; [discriminate|].
      replace (drop_dot (dot :: r0 :: rel)) with (drop_dot (r0 :: rel)) by reflexivity.
      replace (path_of st ++ path_of (dot :: r0 :: rel))
        with (path_of st ++ [47; 46] ++ path_of (r0 :: rel)) by reflexivity.
      change 2%nat with (length [47; 46]). rewrite erase_mid. apply IH; [lia|assumption].
    + replace (drop_dot (s :: rel)) with ([s] ++ drop_dot rel).
      2:{ destruct rel; [reflexivity|]. rewrite andb_true_r in E. cbn [drop_dot]. rewrite E.
          reflexivity. }
      rewrite app_assoc. rewrite <- (IH fuel (st ++ [s])) by (cbn in L; try lia; assumption).
      rewrite (path_of_app st [s]), path_of_one.
      replace ((path_of st ++ 47 :: s) ++ path_of rel) with (path_of st ++ path_of (s :: rel))
        by (rewrite path_of_cons, <- app_assoc; reflexivity).
      apply dot_loop_from. rewrite find_sub_at, scan_dot, E by assumption.
      rewrite path_of_cons.
      replace (path_of st ++ 47 :: s ++ path_of rel) with ((path_of st ++ 47 :: s) ++ path_of rel)
        by (rewrite <- app_assoc; reflexivity).
      rewrite find_sub_at. f_equal. rewrite app_length. reflexivity.
Qed.

Lemma path_of_length segs : (length segs <= length (path_of segs))%nat.
Proof.
  induction segs as [|s r IH]; [cbn; lia|]. rewrite path_of_cons. cbn [length].
  rewrite app_length. lia.
Qed.

Lemma rel_text_path segs : segs <> [] -> 47 :: rel_text segs = path_of segs.
Proof.
  induction segs as [|s r IH]; intros N; [congruence|]. destruct r as [|x r].
  - rewrite path_of_one. reflexivity.
  - rewrite path_of_cons, <- IH by discriminate. reflexivity.
Qed.

Lemma drop_dotdot_free rel : forall st, Forall slash_free st -> Forall slash_free rel ->
  Forall slash_free (drop_dotdot st rel).
Proof.
  induction rel as [|s rel IH]; intros st HS HR; [exact HS|].
  inversion HR as [|? ? H1 H2]; subst.
  destruct rel as [|x rel]; [apply Forall_app; auto|].
  cbn [drop_dotdot]. destruct (is_seg s dotdot).
  - apply IH; [|exact H2]. destruct st as [|y st _] using rev_ind; [constructor|].
    rewrite removelast_last. apply Forall_app in HS. apply HS.
  - apply IH; [|exact H2]. apply Forall_app. auto.
Qed.

Lemma combine_path_spec dir last rel :
  Forall slash_free dir -> slash_free last -> rel <> [] -> Forall slash_free rel ->
  combine_path (path_of (dir ++ [last])) (rel_text rel)
  = Val (Some (path_of (drop_dot (drop_dotdot dir rel)))).
Proof.
  intros HD HL N HR. unfold combine_path.
  rewrite path_of_app, path_of_one.
  assert (EJ : (path_of dir ++ [47]) ++ rel_text rel = path_of dir ++ path_of rel).
  { rewrite <- app_assoc. cbn [app]. rewrite rel_text_path by exact N. reflexivity. }
  assert (G : 
    obind match path_of dir ++ [47] with
          | [] => Val (Some ((path_of dir ++ [47]) ++ rel_text rel))
          | _ => dotdot_loop (S (length ((path_of dir ++ [47]) ++ rel_text rel)))
                   ((path_of dir ++ [47]) ++ rel_text rel) (length (path_of dir ++ [47]) - 1)
          end
      (fun o => match o with
                | None => Val None
                | Some p => obind (dot_loop (S (length p)) p 0) (fun q => Val (Some q))
                end) = Val (Some (path_of (drop_dot (drop_dotdot dir rel))))).
  {
    rewrite EJ.
    replace (length (path_of dir ++ [47%Z]) - 1)%nat with (length (path_of dir))
      by (rewrite app_length; cbn [length]; lia).
    destruct (path_of dir ++ [47]) as [|z0 zs] eqn:EZ; [destruct (path_of dir); discriminate|].
    rewrite dotdot_loop_spec; [|rewrite app_length; pose proof (path_of_length rel); lia
                               |assumption|assumption].
    cbn [obind].
    set (q := drop_dotdot dir rel).
    pose proof (dot_loop_spec q (S (length (path_of q))) []) as D. cbn [path_of map concat app length] in D.
    rewrite D; [reflexivity|pose proof (path_of_length q); lia|].
    apply drop_dotdot_free; assumption. }
  destruct last as [|c l _] using rev_ind.
  - rewrite rev_app_distr. cbn [rev app]. change (47 =? slash) with true. cbn iota. exact G.
  - rewrite rev_app_distr. cbn [rev]. rewrite rev_app_distr. cbn [rev app].
    destruct (Z.eqb_spec c slash) as [->|Nc].
    { exfalso. apply HL. apply in_or_app. right. left. reflexivity. }
    change slash with 47. rewrite rfind_last_app by exact HL.
    replace (firstn (length (path_of dir) + 1) (path_of dir ++ 47 :: l ++ [c]))
      with (path_of dir ++ [47]).
    2:{ rewrite firstn_app. rewrite firstn_all2 by lia. f_equal.
        replace (length (path_of dir) + 1 - length (path_of dir))%nat with 1%nat by lia.
        reflexivity. }
    exact G.
Qed.

(** Agreement with the RFC. *)
Lemma drop_dotdot_plain rel : forall st, ~ In dotdot rel -> drop_dotdot st rel = st ++ rel.
Proof.
  induction rel as [|s rel IH]; intros st H; [symmetry; apply app_nil_r|].
  rewrite drop_dotdot_step.
  - rewrite IH by (intros K; apply H; right; exact K). rewrite <- app_assoc. reflexivity.
  - assert (is_seg s dotdot = false) as ->; [|reflexivity].
    apply is_seg_false. intros ->. apply H. left. reflexivity.
Qed.
Lemma last_name (st : list str) (s : str) : s <> dot /\ s <> dotdot ->
  (if is_seg s dotdot then removelast st ++ [[]] else if is_seg s dot then st ++ [[]] else st ++ [s])
  = st ++ [s].
Proof.
  intros (A & B). rewrite (proj2 (is_seg_false s dotdot) B), (proj2 (is_seg_false s dot) A).
  reflexivity.
Qed.
Lemma rfc_plain rel : forall st, ~ In dotdot rel -> names_file rel -> rfc_resolve st rel = st ++ drop_dot rel.
Proof.
  induction rel as [|s rel IH]; intros st H HL; [symmetry; apply app_nil_r|].
  destruct rel as [|x rel]; [cbn [rfc_resolve drop_dot last] in *; apply last_name; exact HL|].
  assert (E : is_seg s dotdot = false)
    by (apply is_seg_false; intros ->; apply H; left; reflexivity).
  assert (H' : ~ In dotdot (x :: rel)) by (intros K; apply H; right; exact K).
  change (rfc_resolve st (s :: x :: rel)) with
    (if is_seg s dotdot then rfc_resolve (removelast st) (x :: rel)
     else if is_seg s dot then rfc_resolve st (x :: rel) else rfc_resolve (st ++ [s]) (x :: rel)).
  change (drop_dot (s :: x :: rel)) with
    (if is_seg s dot then drop_dot (x :: rel) else s :: drop_dot (x :: rel)).
  rewrite E. destruct (is_seg s dot); rewrite IH by (exact H' || exact HL); [reflexivity|].
  rewrite <- app_assoc. reflexivity.
Qed.
Lemma drop_dot_app st : forall rel, Forall (fun s => s <> dot) st -> rel <> [] ->
  drop_dot (st ++ rel) = st ++ drop_dot rel.
Proof.
  induction st as [|s st IH]; intros rel H N; [reflexivity|].
  inversion H as [|? ? H1 H2]; subst. cbn [app].
  destruct (st ++ rel) as [|y l] eqn:E; [destruct st; [contradiction|discriminate]|].
  change (drop_dot (s :: y :: l)) with
    (if is_seg s dot then drop_dot (y :: l) else s :: drop_dot (y :: l)).
  rewrite (proj2 (is_seg_false s dot)) by exact H1. rewrite <- E, IH by assumption. reflexivity.
Qed.

Lemma rfc_agree rel : forall st, Forall (fun s => s <> dot) st -> rel <> [] -> dots_last rel ->
  names_file rel -> drop_dot (drop_dotdot st rel) = rfc_resolve st rel.
Proof.
  induction rel as [|s rel IH]; intros st HS N HD0 HL; [congruence|]. destruct HD0 as (HD & HD').
  destruct rel as [|x rel].
  { cbn [drop_dotdot rfc_resolve]. rewrite drop_dot_app by (assumption || discriminate).
    symmetry. apply last_name. exact HL. }
  change (rfc_resolve st (s :: x :: rel)) with
    (if is_seg s dotdot then rfc_resolve (removelast st) (x :: rel)
     else if is_seg s dot then rfc_resolve st (x :: rel) else rfc_resolve (st ++ [s]) (x :: rel)).
  change (drop_dotdot st (s :: x :: rel)) with
    (if is_seg s dotdot then drop_dotdot (removelast st) (x :: rel)
     else drop_dotdot (st ++ [s]) (x :: rel)).
  destruct (is_seg s dotdot) eqn:E.
  - apply IH; [|discriminate|exact HD'|exact HL]. destruct st as [|y st _] using rev_ind; [constructor|].
    rewrite removelast_last. apply Forall_app in HS. apply HS.
  - destruct (is_seg s dot) eqn:E2.
    + apply is_seg_true in E2. specialize (HD E2).
      rewrite drop_dotdot_plain, rfc_plain by (exact HD || exact HL). rewrite <- app_assoc.
      rewrite drop_dot_app by (assumption || discriminate). f_equal.
      subst s. reflexivity.
    + apply IH; [|discriminate|exact HD'|exact HL]. apply Forall_app. split; [exact HS|].
      constructor; [|constructor]. apply is_seg_false. exact E2.
Qed.

(** The public constructor. *)
Lemma rel_text_in c segs : In c (rel_text segs) -> c = 47 \/ exists s, In s segs /\ In c s.
Proof.
  induction segs as [|s r IH]; intros H; [destruct H|]. destruct r as [|x r].
  - right. exists s. split; [left; reflexivity|exact H].
  - cbn [rel_text] in H. apply in_app_or in H. destruct H as [H|[H|H]].
    + right. exists s. split; [left; reflexivity|exact H].
    + left. congruence.
    + destruct (IH H) as [->|(y & Hy & Hc)]; [left; reflexivity|].
      right. exists y. split; [right; exact Hy|exact Hc].
Qed.

Definition put_path (u : uri) (p : str) : uri :=
  Uri (u_scheme u) (u_host u) (u_port u) p (u_abs u).

Lemma resolve_rel base s : s <> [] -> ~ In 58 s -> ~ In 92 s ->
  resolve base s =
  if nth 0 s 0 =? slash then Val (Some (put_path base s))
  else obind (combine_path (u_path base) s) (fun o =>
       match o with None => Val None | Some p => Val (Some (put_path base p)) end).
Proof.
  intros N H1 H2. unfold resolve. destruct s as [|c s]; [congruence|].
  rewrite parse_rel by exact H1. rewrite (proj1 (fix_id _)) by exact H2.
  cbn [obind]. unfold absolutise. cbn [u_abs u_scheme u_path orb].
  assert (compatible_schemes (u_scheme base) [] = true) as ->.
  { unfold compatible_schemes. rewrite andb_false_r. reflexivity. }
  reflexivity.
Qed.

Lemma resolve_spec base dir last rel :
  u_path base = path_of (dir ++ [last]) -> Forall slash_free dir -> slash_free last ->
  Forall slash_free rel -> Forall (fun s => ~ In 58 s /\ ~ In 92 s) rel ->
  hd [] rel <> [] ->
  resolve base (rel_text rel)
  = Val (Some (put_path base (path_of (drop_dot (drop_dotdot dir rel))))).
Proof.
  intros HB HD HL HR HC HH.
  assert (N : rel <> []) by (intros ->; apply HH; reflexivity).
  assert (F : forall c, c <> 47 -> (forall s, In s rel -> ~ In c s) -> ~ In c (rel_text rel)).
  { intros c Hc K I. destruct (rel_text_in c rel I) as [->|(s & I1 & I2)]; [congruence|].
    exact (K s I1 I2). }
  assert (HT : exists c t, rel_text rel = c :: t /\ c <> 47).
  { destruct rel as [|s r]; [congruence|]. cbn [hd] in HH. destruct s as [|c s]; [congruence|].
    inversion HR as [|? ? Hs _]; subst. exists c.
    destruct r; cbn [rel_text app]; eexists; (split; [reflexivity|]);
      intros ->; apply Hs; left; reflexivity. }
  destruct HT as (c & t & ET & Hc).
  rewrite resolve_rel.
  - rewrite ET at 1. cbn [nth]. change slash with 47.
    assert ((c =? 47) = false) as -> by (apply Z.eqb_neq; exact Hc).
    rewrite HB, combine_path_spec by assumption. reflexivity.
  - rewrite ET. discriminate.
  - apply F; [discriminate|]. intros s Hs. rewrite Forall_forall in HC. apply (HC s Hs).
  - apply F; [discriminate|]. intros s Hs. rewrite Forall_forall in HC. apply (HC s Hs).
Qed.

Lemma resolve_rfc base dir last rel :
  u_path base = path_of (dir ++ [last]) -> Forall slash_free dir -> slash_free last ->
  Forall (fun s => s <> dot) dir ->
  Forall slash_free rel -> Forall (fun s => ~ In 58 s /\ ~ In 92 s) rel ->
  hd [] rel <> [] -> dots_last rel -> names_file rel ->
  resolve base (rel_text rel) = Val (Some (put_path base (path_of (rfc_resolve dir rel)))).
Proof.
  intros HB HD HL ND HR HC HH HDL HN. rewrite (resolve_spec base dir last) by assumption.
  rewrite rfc_agree; [reflexivity|assumption| |assumption|assumption].
  intros ->. apply HH. reflexivity.
Qed.

Lemma resolve_absolute base s u : s <> [] -> parse s = Val u -> u_abs u = true ->
  resolve base s = Val (Some u).
Proof.
  intros N P A. unfold resolve. destruct s; [congruence|]. rewrite P. cbn [obind].
  unfold absolutise. rewrite A. reflexivity.
Qed.
Lemma resolve_other_scheme base s u : s <> [] -> parse s = Val u ->
  u_scheme u <> [] -> u_scheme u <> u_scheme base -> u_scheme base <> [] ->
  resolve base s = Val (Some u).
Proof.
  intros N P A B C. unfold resolve. destruct s; [congruence|]. rewrite P. cbn [obind].
  unfold absolutise, compatible_schemes.
  rewrite (str_eqb_neq (u_scheme base) []) by exact C. cbn [andb].
  rewrite (str_eqb_neq (u_scheme u) []) by exact A.
  rewrite (str_eqb_neq (u_scheme base) (u_scheme u)) by congruence.
  rewrite orb_true_r. reflexivity.
Qed.
Lemma resolve_rooted base s : starts 47 s -> ~ In 58 s -> ~ In 92 s ->
  resolve base s = Val (Some (put_path base s)).
Proof.
  intros (r & ->) H1 H2. rewrite resolve_rel by (assumption || discriminate). reflexivity.
Qed.
