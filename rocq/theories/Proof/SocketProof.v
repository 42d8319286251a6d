(** Proofs about sockets. *)
From Coq Require Import Lia.
From Verif.Model Require Import Base ConvertIo Socket.
From Verif.Spec Require Import ConvertIoSpec SocketSpec.
From Verif.Proof Require Import Tac ConvertIoProof.

Inductive listens : listener -> place -> Prop :=
| listens_new : forall parts, all_some parts -> listens (listen (pieces parts)) ([], concat parts)
| listens_at : forall junk back front tail parts older,
    all_some parts -> (length junk <= 4)%nat -> (4 <= length junk + length back + length front)%nat ->
    length (junk ++ back ++ front ++ tail) = 1028%nat ->
    listens (Listener (junk ++ back ++ front ++ tail)
               (At (length junk) (length junk + length back) (length junk + length back + length front)) true (pieces parts))
      (rev back ++ older, front ++ concat parts).
Definition back_room (l : listener) : nat := match l_marks l with At e g _ => (g - e)%nat | _ => O end.
Definition long (p : str) : Prop := (4 <= length p <= 1024)%nat.
(** No memcpy will overlap. *)
Definition calm (l : listener) : Prop :=
  match l_marks l with
  | At e _ x => (e = 4 \/ 8 <= x)%nat /\ exists parts, l_coming l = pieces parts /\ Forall long parts
  | _ => exists parts, l_coming l = pieces parts /\ Forall (fun p : str => (length p <= 1024)%nat) parts /\ Forall long (tl parts)
  end.

Lemma pieces_inj : forall a b, pieces a = pieces b -> a = b.
Proof.
  induction a as [|x a IH]; intros [|y b] Q; cbn in Q; try discriminate; [reflexivity|]. injection Q as -> Q. f_equal. apply IH, Q.
Qed.
Lemma at_front junk back c front tail e x o k :
  here (Listener (junk ++ back ++ (c :: front) ++ tail) (At e (length junk + length back) x) o k) = Val c.
Proof.
  unfold here. cbn [l_marks l_area].
  replace (junk ++ back ++ (c :: front) ++ tail) with ((junk ++ back) ++ c :: front ++ tail) by (rewrite <- app_assoc; reflexivity).
  rewrite nth_error_app2 by (rewrite app_length; lia). rewrite app_length, Nat.sub_diag. reflexivity.
Qed.

Lemma take_part : forall m pb pre kept rest parts,
  m = pre ++ kept ++ rest -> length pre = (4 - pb)%nat -> length kept = pb -> (pb <= 4)%nat -> length m = 1028%nat ->
  all_some parts -> parts <> [] ->
  exists b r got parts', pieces parts = Bytes b :: r /\ b <> [] /\ got = firstn (length m - spare) b /\ got <> [] /\
    (length got <= 1024)%nat /\ all_some parts' /\ concat parts = got ++ concat parts' /\
    (match skipn (length m - spare) b with [] => r | _ => Bytes (skipn (length m - spare) b) :: r end) = pieces parts' /\
    (exists tail, write_at m spare got = pre ++ kept ++ got ++ tail /\ length (pre ++ kept ++ got ++ tail) = 1028%nat) /\
    ((length b <= 1024)%nat -> got = b /\ parts = b :: parts').
Proof.
  intros m pb pre kept rest parts Em Lp Lk Hp Lm S N. destruct parts as [|b parts]; [congruence|].
  inversion S as [|? ? Sb Sp]. subst x l. exists b, (pieces parts), (firstn (length m - spare) b).
  set (rem := skipn (length m - spare) b). exists (match rem with [] => parts | _ => rem :: parts end).
  split; [reflexivity|]. split; [exact Sb|]. split; [reflexivity|].
  assert (LS : (length m - spare = 1024)%nat) by (unfold spare; lia).
  split; [rewrite LS; destruct b; [congruence|discriminate]|].
  assert (LG : (length (firstn (length m - spare) b) <= 1024)%nat) by (rewrite firstn_length; lia).
  split; [exact LG|]. split; [destruct rem eqn:E; [exact Sp|constructor; [discriminate|exact Sp]]|].
  split.
  { cbn [concat]. rewrite <- (firstn_skipn (length m - spare) b) at 1. fold rem. destruct rem; [rewrite app_nil_r; reflexivity|].
    cbn [concat]. rewrite <- app_assoc. reflexivity. }
  split; [unfold rem; destruct (skipn (length m - spare) b); reflexivity|].
  split.
  - exists (skipn (length (firstn (length m - spare) b)) rest).
    set (got := firstn (length m - spare) b) in *.
    assert (LR : length rest = 1024%nat) by (rewrite Em, !app_length in Lm; lia).
    assert (W : write_at m spare got = pre ++ kept ++ got ++ skipn (length got) rest).
    { pose proof (write_at_split (pre ++ kept) [] rest got ltac:(lia)) as Q. cbn [app length] in Q.
      rewrite Nat.add_0_r, app_length, <- !app_assoc in Q. rewrite Em, <- Q. f_equal. unfold spare. lia. }
    split; [exact W|]. rewrite !app_length, skipn_length. lia.
  - intros Hb. assert (EB : firstn (length m - spare) b = b) by (rewrite LS; apply firstn_all2; lia).
    split; [exact EB|]. replace rem with (@nil Z) by (unfold rem; symmetry; rewrite LS; apply skipn_all2; lia). reflexivity.
Qed.

Lemma read_lemma : forall l b a, listens l (b, a) ->
  (match l_marks l with At _ g x => (x <= g)%nat | _ => True end) ->
  (read_socket l = UB /\ ~ calm l) \/
  (a = [] /\ exists l', read_socket l = Val (l', O) /\ l_marks l' = Null /\ l_open l' = false) \/
  (exists l' n c, read_socket l = Val (l', S n) /\ listens l' (b, a) /\ hd_error a = Some c /\ here l' = Val c /\
     (match l_marks l' with At _ g x => (g < x)%nat | _ => False end) /\
     (Nat.min 4 (back_room l) <= back_room l')%nat /\ (calm l -> calm l')).
Proof.
  intros l b a H HE. inversion H as [parts S|junk back front tail parts older S HJ HT HL]; subst.
  - unfold read_socket, listen. cbn [l_area l_marks l_coming]. cbn [Nat.sub Nat.min memcpy Nat.eqb obind].
    set (m := repeat 0 (block + spare)). assert (Lm : length m = 1028%nat) by (unfold m; rewrite repeat_length; reflexivity).
    change (Nat.min 0 spare) with 0%nat. unfold memcpy. cbn [Nat.eqb obind].
    destruct parts as [|p parts].
    + right. left. split; [reflexivity|]. eexists. split; [reflexivity|]. split; reflexivity.
    + destruct (take_part m 0 (firstn 4 m) [] (skipn 4 m) (p :: parts)) as (y & r & got & parts' & E1 & E2 & E3 & E4 & E5 & E6 & E7 & E8 & (t & E9 & E9') & E10).
      { cbn [app]. symmetry. apply firstn_skipn. } { rewrite firstn_length. lia. } { reflexivity. } { lia. } { exact Lm. } { exact S. } { discriminate. }
      right. right. rewrite E1. destruct y as [|y0 y]; [congruence|]. cbv zeta. rewrite E8, <- E3, E9.
      assert (EG : exists c got', got = c :: got') by (destruct got as [|c got']; [congruence|eauto]). destruct EG as (c & got' & EG).
      assert (LF : length (firstn 4 m) = 4%nat) by (rewrite firstn_length; lia).
      exists (Listener (firstn 4 m ++ [] ++ got ++ t) (At 4 4 (4 + length got)) true (pieces parts')), (length got - 1)%nat, c.
      split; [replace (Datatypes.S (length got - 1)) with (length got) by (rewrite EG; cbn [length]; lia); reflexivity|].
      split.
      { rewrite E7. pose proof (listens_at (firstn 4 m) [] got t parts' [] E6) as Q. rewrite LF in Q. cbn [length rev app] in Q.
        apply Q; [lia|lia|exact E9']. }
      split; [rewrite E7, EG; reflexivity|]. split.
      { rewrite EG. replace (At 4 4 (4 + length (c :: got'))) with (At 4 (length (firstn 4 m) + @length Z []) (4 + length (c :: got'))) by (rewrite LF; reflexivity).
        apply at_front. }
      split; [cbn [l_marks]; rewrite EG; cbn [length]; lia|]. split; [cbn; lia|].
      intros (qs & Q1 & Q2 & Q3). cbn [l_coming] in Q1. unfold calm. cbn [l_marks l_coming]. split; [lia|]. exists parts'. split; [reflexivity|].
      assert (Eq : qs = p :: parts) by (apply pieces_inj; congruence).
      subst qs. cbn in E1. injection E1 as E1 _. inversion Q2 as [|? ? Q4 Q5]. subst.
      destruct (E10 ltac:(cbn in *; lia)) as [_ E11]. assert (E12 : parts = parts') by congruence. cbn [tl] in Q3. rewrite <- E12. exact Q3.
  - cbn [l_marks] in HE. assert (F0 : front = []) by (destruct front; [reflexivity|cbn [length] in HE; lia]). subst front.
    cbn [app length] in *. rewrite Nat.add_0_r in HE, HT. unfold read_socket. cbn [l_area l_marks l_coming]. unfold back_room. cbn [l_marks].
    replace (length junk + length back - length junk)%nat with (length back) by lia.
    set (m := junk ++ back ++ tail) in *. set (pb := Nat.min (length back) spare).
    assert (EM0 : (match m with [] => repeat 0 (block + spare) | z :: l0 => z :: l0 end) = m) by (destruct m; [discriminate HL|reflexivity]). rewrite EM0.
    destruct (memcpy m (Z.of_nat (spare - pb)) (Z.of_nat (length junk + length back) - Z.of_nat pb) pb) as [m1| |] eqn:M.
    + cbn [obind].
      destruct (memcpy_back junk back tail m1 HT) as (pre & rest & EM & LP).
      { unfold spare in M. rewrite !Nat.mul_1_r. exact M. }
      fold pb in EM, LP. change (Nat.min (length back) 4) with pb in EM, LP.
      assert (L1 : length m1 = 1028%nat) by (rewrite (memcpy_length _ _ _ _ _ M); exact HL).
      assert (HB : (pb <= 4)%nat) by (unfold pb, spare; lia).
      set (kept := skipn (length back - pb) back) in *.
      assert (LK : length kept = pb) by (unfold kept; rewrite skipn_length; unfold pb; lia).
      destruct parts as [|p parts].
      * right. left. split; [reflexivity|]. eexists. split; [reflexivity|]. split; reflexivity.
      * destruct (take_part m1 pb pre kept rest (p :: parts)) as (y & r & got & parts' & E1 & E2 & E3 & E4 & E5 & E6 & E7 & E8 & (t & E9 & E9') & E10); auto; [discriminate|].
        right. right. rewrite E1. destruct y as [|y0 y]; [congruence|]. cbv zeta. rewrite E8, <- E3, E9.
        assert (EG : exists c got', got = c :: got') by (destruct got as [|c got']; [congruence|eauto]). destruct EG as (c & got' & EG).
        exists (Listener (pre ++ kept ++ got ++ t) (At (4 - pb) 4 (4 + length got)) true (pieces parts')), (length got - 1)%nat, c.
        split; [replace (Datatypes.S (length got - 1)) with (length got) by (rewrite EG; cbn [length]; lia); reflexivity|].
        assert (EB : rev back = rev kept ++ rev (firstn (length back - pb) back)).
        { rewrite <- rev_app_distr. unfold kept. rewrite firstn_skipn. reflexivity. }
        split.
        { rewrite E7, EB, <- app_assoc. pose proof (listens_at pre kept got t parts' (rev (firstn (length back - pb) back) ++ older) E6) as Q.
          rewrite LP, LK in Q. replace (4 - pb + pb)%nat with 4%nat in Q by lia. apply Q; [lia|lia|exact E9']. }
        split; [rewrite E7, EG; reflexivity|]. split.
        { rewrite EG. replace (At (4 - pb) 4 (4 + length (c :: got'))) with (At (4 - pb) (length pre + length kept) (4 + length (c :: got'))) by (f_equal; lia).
          apply at_front. }
        split; [cbn [l_marks]; rewrite EG; cbn [length]; lia|]. split; [unfold back_room; cbn [l_marks]; unfold pb, spare; lia|].
        intros [Q1 (qs & Q2 & Q3)]. cbn [l_coming] in Q2. unfold calm. cbn [l_marks l_coming].
        assert (Eq : qs = p :: parts) by (apply pieces_inj; congruence).
        subst qs. cbn in E1. injection E1 as E1 _. inversion Q3 as [|? ? [Q4 Q4'] Q5]. subst p.
        destruct (E10 Q4') as [EGb E11]. assert (E12 : parts = parts') by congruence. split; [right; rewrite EGb; lia|]. exists parts'. split; [reflexivity|]. rewrite <- E12. exact Q5.
    + left. split; [reflexivity|]. intros [Q _]. cbn [l_marks] in Q. unfold memcpy in M.
      destruct (Nat.eqb_spec pb 0); [discriminate|].
      assert (LB : (length m = length junk + length back + length tail)%nat) by (unfold m; rewrite !app_length; lia).
      assert (PB : (pb <= 4 /\ pb <= length back)%nat) by (unfold pb, spare; lia).
      destruct (_ || _) eqn:B.
      { repeat (rewrite orb_true_iff in B). unfold spare in B. repeat rewrite Z.ltb_lt in B. lia. }
      destruct (Z.eqb_spec (Z.of_nat (spare - pb)) (Z.of_nat (length junk + length back) - Z.of_nat pb)) as [|NE]; [discriminate|].
      match type of M with (if ?q then _ else _) = _ => destruct q eqn:R; [|discriminate] end.
      apply Z.ltb_lt in R. unfold spare in *. unfold pb in *. lia.
    + exfalso. exact (memcpy_fuel _ _ _ _ M).
Qed.

Lemma hear_lemma : forall l b a, listens l (b, a) ->
  (hear l = UB /\ ~ calm l) \/
  (a = [] /\ exists l', hear l = Val (l', None) /\ l_marks l' = Null /\ l_open l' = false) \/
  (exists l' c a', a = c :: a' /\ hear l = Val (l', Some c) /\ listens l' (b, a) /\
     (match l_marks l' with At _ g x => (g < x)%nat | _ => False end) /\
     (Nat.min 4 (back_room l) <= back_room l')%nat /\ (calm l -> calm l')).
Proof.
  intros l b a H.
  assert (RD : (match l_marks l with At _ g x => (x <= g)%nat | _ => True end) -> l_open l = true ->
    hear l = obind (read_socket l) (fun '(l', n) => if Nat.eqb n 0 then Val (l', None) else obind (here l') (fun c => Val (l', Some c)))).
  { intros G O. unfold hear. destruct (l_marks l) as [|e g x|]; rewrite O; try reflexivity. destruct (Nat.ltb_spec g x); [lia|reflexivity]. }
  assert (O : l_open l = true) by (inversion H; reflexivity).
  destruct (match l_marks l with At _ g x => Nat.ltb g x | _ => false end) eqn:R.
  - destruct (l_marks l) as [|e g x|] eqn:ML; try discriminate R. apply Nat.ltb_lt in R. right. right.
    inversion H as [parts S|junk back front tail parts older S HJ HT HL]; subst; [discriminate ML|]. cbn [l_marks] in ML. injection ML as <- <- <-.
    destruct front as [|c front]; [cbn [length] in R; lia|]. eexists _, c, (front ++ concat parts).
    split; [reflexivity|]. split.
    { unfold hear. cbn [l_marks]. destruct (Nat.ltb_spec (length junk + length back) (length junk + length back + length (c :: front))); [|lia].
      rewrite at_front. reflexivity. }
    split; [exact H|]. split; [cbn [l_marks]; exact R|]. split; [apply Nat.le_min_r|auto].
  - assert (G : match l_marks l with At _ g x => (x <= g)%nat | _ => True end).
    { destruct (l_marks l); try exact Logic.I. apply Nat.ltb_ge in R. exact R. }
    rewrite (RD G O). destruct (read_lemma l b a H G) as [[E N]|[[E (l' & E1 & E2 & E3)]|(l' & n & c & E1 & E2 & E3 & E4 & E5 & E6 & E7)]].
    + left. rewrite E. auto.
    + right. left. split; [exact E|]. rewrite E1. cbn [obind Nat.eqb]. eauto.
    + right. right. destruct a as [|c' a']; [discriminate E3|]. injection E3 as ->. exists l', c, a'. split; [reflexivity|].
      rewrite E1. cbn [obind Nat.eqb]. rewrite E4. cbn [obind]. auto.
Qed.

Lemma closed_run : forall ops l, l_marks l = Null -> l_open l = false -> exists l', listen_run ops l = Val (l', repeat None (length ops)).
Proof.
  induction ops as [|op ops IH]; intros l M O; [exists l; reflexivity|].
  assert (E : listen_step op l = Val (l, None)).
  { destruct op; cbn [listen_step]; unfold next_char, hear, step_back; rewrite ?M, ?O; cbn [obind]; rewrite ?M; reflexivity. }
  cbn [listen_run]. rewrite E. cbn [obind]. destruct (IH l M O) as [l' E']. rewrite E'. cbn [obind]. eauto.
Qed.

Lemma bump_listens : forall l b c a, listens l (b, c :: a) -> (match l_marks l with At _ g x => (g < x)%nat | _ => False end) ->
  exists e g x, l_marks l = At e g x /\ listens (set_marks l (At e (g + 1) x)) (c :: b, a) /\
    back_room (set_marks l (At e (g + 1) x)) = S (back_room l) /\ (calm l -> calm (set_marks l (At e (g + 1) x))).
Proof.
  intros l b c a H G. inversion H as [parts S|junk back front tail parts older S HJ HT HL]; subst; [destruct G|].
  cbn [l_marks] in G. destruct front as [|c' front]; [cbn [length] in G; lia|].
  match goal with H : (_ :: _) ++ _ = _ |- _ => cbn [app] in H; injection H as -> <- | _ => idtac end.
  eexists _, _, _. split; [reflexivity|]. unfold set_marks. cbn [l_area l_open l_coming]. split.
  - pose proof (listens_at junk (back ++ [c]) front tail parts older S HJ) as Q. rewrite rev_app_distr in Q. cbn [rev app] in Q.
    rewrite !app_length in Q. cbn [length] in Q. rewrite <- !app_assoc in Q. cbn [app] in Q.
    cbn [length app]. replace (length junk + length back + 1)%nat with (length junk + (length back + 1))%nat by lia.
    replace (length junk + length back + Datatypes.S (length front))%nat with (length junk + (length back + 1) + length front)%nat by lia.
    apply Q; [cbn [length] in HT; lia|]. clear Q; repeat (rewrite app_length in * || cbn [length app] in * ). lia.
  - split; [unfold back_room; cbn [l_marks]; lia|]. unfold calm. cbn [l_marks l_coming]. auto.
Qed.

Lemma back_lemma : forall d l b a, listens l (b, a) ->
  (step_back d l = Val (l, None) /\ back_room l = O) \/
  (exists l' c b', b = c :: b' /\ step_back d l = Val (l', Some (match d with None => c | Some x => x end)) /\
     listens l' (b', match d with None => c | Some x => x end :: a) /\ (back_room l - 1 <= back_room l')%nat /\ (calm l -> calm l')).
Proof.
  intros d l b a H. inversion H as [parts S|junk back front tail parts older S HJ HT HL]; subst.
  - left. split; reflexivity.
  - unfold step_back. cbn [l_marks l_area l_open l_coming]. destruct (Nat.eqb_spec (length junk + length back) (length junk)) as [E|E].
    + left. split; [reflexivity|]. unfold back_room. cbn [l_marks]. lia.
    + right. destruct back as [|y back] using rev_ind; [cbn [length] in E; lia|]. clear IHback.
      rewrite rev_app_distr. cbn [rev app]. rewrite !app_length in *. cbn [length] in *.
      set (w := match d with None => y | Some x => x end).
      assert (EM : match d with None => junk ++ (back ++ [y]) ++ front ++ tail
                   | Some ch => write_at (junk ++ (back ++ [y]) ++ front ++ tail) (length junk + (length back + 1) - 1) [ch] end
                   = junk ++ back ++ (w :: front) ++ tail).
      { unfold w. destruct d as [x|]; [|rewrite <- !app_assoc; reflexivity].
        pose proof (write_at_split junk back ([y] ++ front ++ tail) [x] ltac:(cbn; lia)) as Q. cbn [length skipn app] in Q.
        replace (length junk + (length back + 1) - 1)%nat with (length junk + length back)%nat by lia.
        rewrite <- !app_assoc. cbn [app]. rewrite <- !app_assoc in Q. exact Q. }
      rewrite EM. replace (length junk + (length back + 1) - 1)%nat with (length junk + length back)%nat by lia.
      rewrite at_front. cbn [obind]. eexists _, y, (rev back ++ older). split; [reflexivity|]. split; [reflexivity|]. split.
      * pose proof (listens_at junk back (w :: front) tail parts older S HJ) as Q. cbn [length] in Q.
        replace (length junk + (length back + 1) + length front)%nat with (length junk + length back + Datatypes.S (length front))%nat by lia.
        apply Q; [lia|]. clear Q; repeat (rewrite app_length in * || cbn [length app] in * ). lia.
      * split; [unfold back_room; cbn [l_marks]; lia|]. unfold calm. cbn [l_marks l_coming]. intros [Q1 Q2]. split; [lia|exact Q2].
Qed.

Lemma listen_lemma : forall ops l p n, listens l p -> (n <= back_room l)%nat -> (n <= 4)%nat ->
  (listen_run ops l = UB /\ ~ calm l) \/ exists l' r, listen_run ops l = Val (l', r) /\ hears p n ops r.
Proof.
  induction ops as [|op ops IH]; intros l p n H Hn H4; [right; exists l, []; split; [reflexivity|constructor]|].
  destruct p as [b a]. cbn [listen_run].
  assert (NX : forall l1 v p1 n1, listen_step op l = Val (l1, v) -> listens l1 p1 -> (calm l -> calm l1) -> (n1 <= back_room l1)%nat -> (n1 <= 4)%nat ->
    moves (b, a) n op v p1 n1 -> ~ (v = None /\ forward op) ->
    (obind (listen_step op l) (fun '(l, a) => obind (listen_run ops l) (fun '(l, r) => Val (l, a :: r))) = UB /\ ~ calm l) \/
    exists l' r, obind (listen_step op l) (fun '(l, a) => obind (listen_run ops l) (fun '(l, r) => Val (l, a :: r))) = Val (l', r) /\ hears (b, a) n (op :: ops) r).
  { intros l1 v p1 n1 E H1 C1 G1 G2 M NF. rewrite E. cbn [obind]. destruct (IH l1 p1 n1 H1 G1 G2) as [[E1 N1]|(l' & r & E1 & E2)]; rewrite E1; cbn [obind].
    - left. auto.
    - right. exists l', (v :: r). split; [reflexivity|]. econstructor; eassumption. }
  destruct op as [| | |d]; cbn [listen_step] in *.
  - destruct (hear_lemma l b a H) as [[E N]|[[-> (l' & E & M & O)]|(l' & c & a' & -> & E & H' & G & R & C)]].
    + left. unfold next_char. rewrite E. auto.
    + right. unfold next_char. rewrite E. cbn [obind]. destruct (closed_run ops l' M O) as [l2 E2]. rewrite E2. cbn [obind].
      eexists _, _. split; [reflexivity|]. apply hears_end. left. reflexivity.
    + destruct (bump_listens l' b c a' H' G) as (e & g & x & M & H2 & R2 & C2).
      apply (NX (set_marks l' (At e (g + 1) x)) (Some c) (c :: b, a') (Nat.min 4 (n + 1))); [unfold next_char; rewrite E; cbn [obind]; rewrite M; reflexivity
        |exact H2|auto|rewrite R2; lia|lia|apply gets_one|intros [Q _]; discriminate Q].
  - destruct (hear_lemma l b a H) as [[E N]|[[-> (l' & E & M & O)]|(l' & c & a' & -> & E & H' & G & R & C)]].
    + left. rewrite E. auto.
    + right. rewrite E. cbn [obind]. destruct (closed_run ops l' M O) as [l2 E2]. rewrite E2. cbn [obind].
      eexists _, _. split; [reflexivity|]. apply hears_end. right. reflexivity.
    + apply (NX l' (Some c) (b, c :: a') n E H' C); [lia|lia|apply peeks_one|intros [Q _]; discriminate Q].
  - destruct (back_lemma None l b a H) as [[E Z0]|(l' & c & b' & -> & E & H' & R & C)].
    + assert (n = O) by lia. subst n. apply (NX l None (b, a) O E H); [auto|lia|lia|apply refuses; auto|intros [_ [Q|Q]]; discriminate Q].
    + apply (NX l' (Some c) (b', c :: a) (n - 1)%nat E H' C); [lia|lia|apply back|intros [Q _]; discriminate Q].
  - destruct (back_lemma (Some d) l b a H) as [[E Z0]|(l' & c & b' & -> & E & H' & R & C)].
    + assert (n = O) by lia. subst n. apply (NX l None (b, a) O E H); [auto|lia|lia|apply refuses; eauto|intros [_ [Q|Q]]; discriminate Q].
    + apply (NX l' (Some d) (b', d :: a) (n - 1)%nat E H' C); [lia|lia|apply puts_back|intros [Q _]; discriminate Q].
Qed.

(** * Writing *)
Lemma say_lemma : forall c s, (s_place s <= length (s_area s))%nat -> s_open s = true ->
  exists m, say c s = (Speaker m (s_place s + 1) true (s_sent s) (s_answers s), true) /\ (s_place s + 1 <= length m)%nat /\ m <> [] /\
    firstn (s_place s + 1) m = firstn (s_place s) (s_area s) ++ [c].
Proof.
  intros c [m p o sent ans] HP HO. cbn [s_place s_area s_open s_sent s_answers] in *. subst o. unfold say. cbn [s_place s_area s_open s_sent s_answers negb].
  assert (W : forall m p, (p < length m)%nat -> length (write_at m p [c]) = length m /\ firstn (p + 1) (write_at m p [c]) = firstn p m ++ [c]).
  { clear. intros m p H. unfold write_at. cbn [length]. assert (L : length (firstn p m) = p) by (rewrite firstn_length; lia). split.
    - rewrite !app_length, L, skipn_length. cbn [length]. lia.
    - rewrite firstn_app, L. rewrite firstn_all2 by lia. replace (p + 1 - p)%nat with 1%nat by lia. reflexivity. }
  destruct (Nat.ltb_spec p (length m)) as [H|H].
  - destruct (W m p H) as [W1 W2]. eexists. split; [reflexivity|]. split; [lia|]. split; [|exact W2].
    intros Q. apply (f_equal (@length Z)) in Q. cbn [length] in Q. lia.
  - assert (p = length m) by lia. subst p.
    assert (L : (length m < length (enlarge m))%nat).
    { unfold enlarge. rewrite app_length, repeat_length. destruct (Nat.eqb_spec (length m) 0); unfold block; lia. }
    destruct (W (enlarge m) (length m) L) as [W1 W2]. eexists. split; [reflexivity|]. split; [lia|]. split.
    + intros Q. apply (f_equal (@length Z)) in Q. cbn [length] in Q. lia.
    + rewrite W2. f_equal. unfold enlarge. rewrite firstn_app, Nat.sub_diag. cbn [firstn]. apply app_nil_r.
Qed.

Lemma send_lemma : forall s, s_area s <> [] -> s_open s = true -> s_answers s = [] ->
  exists s', send_all s = Val (s', true) /\ s_area s' = s_area s /\ s_place s' = O /\ s_open s' = true /\ s_answers s' = [] /\
    s_sent s' = s_sent s ++ firstn (s_place s) (s_area s).
Proof.
  intros [m p o sent ans] HM HO HA. cbn [s_place s_area s_open s_sent s_answers] in *. subst. unfold send_all. cbn [s_place s_area s_open s_sent s_answers negb].
  destruct m as [|x m]; [congruence|]. destruct (firstn p (x :: m)) eqn:F.
  - assert (p = O) by (destruct p; [reflexivity|discriminate F]). subst p. eexists. split; [reflexivity|]. cbn [s_place s_area s_open s_sent s_answers].
    rewrite app_nil_r. auto.
  - eexists. split; [reflexivity|]. cbn [s_place s_area s_open s_sent s_answers]. auto.
Qed.

Lemma speak_lemma : forall ops s, (s_place s <= length (s_area s))%nat -> s_open s = true -> s_answers s = [] -> Forall not_closing ops ->
  (s_area s <> [] \/ hd_error ops <> Some Sync) ->
  exists s', speak_run ops s = Val (s', repeat true (length ops)) /\ (s_place s' <= length (s_area s'))%nat /\ s_open s' = true /\ s_answers s' = [] /\
    (s_area s <> [] \/ ops <> [] -> s_area s' <> []) /\
    s_sent s' ++ firstn (s_place s') (s_area s') = s_sent s ++ firstn (s_place s) (s_area s) ++ said ops.
Proof.
  induction ops as [|op ops IH]; intros s HP HO HA HF HH.
  - exists s. cbn. rewrite app_nil_r. repeat split; auto. intros [Q|Q]; congruence.
  - inversion HF as [|? ? F1 F2]. subst. cbn [speak_run]. destruct op as [c| |].
    + cbn [speak_step obind]. destruct (say_lemma c s HP HO) as (m & E & L & NE & FN). rewrite E.
      set (s1 := Speaker m (s_place s + 1) true (s_sent s) (s_answers s)).
      destruct (IH s1 L eq_refl HA F2 (or_introl NE)) as (s' & E' & P' & O' & A' & N' & T'). rewrite E'. cbn [obind].
      exists s'. split; [reflexivity|]. split; [exact P'|]. split; [exact O'|]. split; [exact A'|]. split; [intros _; apply N'; left; exact NE|].
      rewrite T'. unfold s1. cbn [s_sent s_place s_area said]. rewrite FN, <- app_assoc. reflexivity.
    + assert (NE : s_area s <> []) by (destruct HH as [Q|Q]; [exact Q|cbn in Q; congruence]).
      cbn [speak_step]. destruct (send_lemma s NE HO HA) as (s1 & E & E1 & E2 & E3 & E4 & E5). rewrite E. cbn [obind].
      destruct (IH s1) as (s' & E' & P' & O' & A' & N' & T'); [lia|exact E3|exact E4|exact F2|left; rewrite E1; exact NE|].
      rewrite E'. cbn [obind]. exists s'. split; [reflexivity|]. split; [exact P'|]. split; [exact O'|]. split; [exact A'|].
      split; [intros _; apply N'; left; rewrite E1; exact NE|]. rewrite T', E2, E5. cbn [firstn app said]. rewrite <- app_assoc. reflexivity.
    + exfalso. apply F1. reflexivity.
Qed.

Lemma all_said_lemma : forall c ops, Forall not_closing ops ->
  all_said [] (Say c :: ops) = Val (c :: said ops, repeat true (length ops + 1)).
Proof.
  intros c ops HF. unfold all_said.
  destruct (speak_lemma (Say c :: ops) (speak [])) as (s & E & P & O & A & N & T);
    [cbn; lia|reflexivity|reflexivity|constructor; [discriminate|exact HF]|right; discriminate|].
  rewrite E. cbn [obind]. unfold finish. rewrite O.
  destruct (send_lemma s) as (s1 & E1 & _ & _ & _ & _ & E5); [apply N; right; discriminate|exact O|exact A|].
  rewrite E1. cbn [obind]. rewrite E5, T. cbn [speak s_sent s_place s_area firstn app said length]. rewrite Nat.add_comm. reflexivity.
Qed.

(** * HTTP *)
Lemma line_lemma : forall l room rest, ~ In 10 l -> (length l <= room)%nat -> line room (l ++ 10 :: rest) = Some (l, rest).
Proof.
  induction l as [|c l IH]; intros room rest N H; [destruct room; reflexivity|].
  cbn [length] in H. destruct room as [|room]; [lia|].
  cbn [app line]. destruct (Z.eqb_spec c 10) as [->|NE]; [exfalso; apply N; left; reflexivity|].
  rewrite (IH room rest) by (try (intros Q; apply N; right; exact Q); lia).
  destruct (l ++ 10 :: rest) eqn:Q; [destruct l; discriminate Q|reflexivity].
Qed.
Lemma headers_lemma : forall headers document, Forall header headers -> Forall (fun h : str => (length h <= 1022)%nat) headers ->
  skip_headers (length headers + 1) (response headers document) = Val document.
Proof.
  induction headers as [|h headers IH]; intros document HH HL.
  - reflexivity.
  - inversion HH as [|? ? (H1 & H2 & H3) HH']. inversion HL as [|? ? L1 L2]. subst. cbn [length Nat.add skip_headers].
    assert (E : response (h :: headers) document = (h ++ [13]) ++ 10 :: response headers document).
    { unfold response. cbn [map concat]. unfold crlf. rewrite <- !app_assoc. cbn [app]. reflexivity. }
    rewrite E, line_lemma.
    + destruct h as [|c h]; [congruence|]. cbn [app]. cbn [hd] in H3. apply Z.eqb_neq in H3. rewrite H3. apply IH; assumption.
    + intros Q. apply in_app_iff in Q as [Q|[Q|[]]]; [exact (H2 Q)|discriminate Q].
    + rewrite app_length. cbn [length]. lia.
Qed.
Lemma no_more : forall fuel, skip_headers fuel [] = Base.NoFuel.
Proof. induction fuel as [|fuel IH]; [reflexivity|]. exact IH. Qed.
