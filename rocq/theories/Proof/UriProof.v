From Verif.Model Require Import Base Text Uri.
From Verif.Spec Require Import UriSpec.
From Verif.Proof Require Import Tac ConvertProof TextProof.

Lemma str_eqb_refl s : str_eqb s s = true.
Proof. apply str_eqb_eq. reflexivity. Qed.
Lemma str_eqb_neq a b : a <> b -> str_eqb a b = false.
Proof. intros H. destruct (str_eqb a b) eqn:E; [|reflexivity]. apply str_eqb_eq in E. tauto. Qed.

(** * Printing and parsing *)

Lemma find_char_app x a b : ~ In x a -> find_char x (a ++ x :: b) = Some (length a).
Proof. intros H. apply find_char_some. exists a, b. auto. Qed.

Definition rest_parse (scheme r : str) : outcome uri :=
  match r with
  | [] => UB
  | c1 :: r1 =>
      if c1 =? slash then
        match r1 with
        | [] => UB
        | c2 :: r2 =>
            if c2 =? slash then
              let '(h, p, rest) := parse_authority r2 in
              Val (Uri scheme h p rest (absolute_test scheme h rest))
            else Val (Uri scheme [] [] r (absolute_test scheme [] r))
        end
      else Val (Uri scheme [] [] r (absolute_test scheme [] r))
  end.

Lemma parse_rel s : ~ In 58 s -> parse s = Val (Uri [] [] [] (fix_slashes s) false).
Proof.
  intros H. unfold parse, parse_uri. rewrite (proj2 (find_char_none colon s)) by exact H.
  reflexivity.
Qed.
Lemma parse_scheme sc r : ~ In 58 sc -> length sc <> 1%nat ->
  parse (sc ++ 58 :: r) = rest_parse sc r.
Proof.
  intros H L. unfold parse, parse_uri. change colon with 58. rewrite find_char_app by exact H.
  destruct (Nat.eqb_spec (length sc) 1); [contradiction|].
  rewrite firstn_length_app, skipn_length_app1.
  destruct r as [|c1 r1]; [reflexivity|]. cbn [rest_parse].
  destruct (c1 =? slash); [|reflexivity].
  destruct r1 as [|c2 r2]; [reflexivity|].
  destruct (c2 =? slash); [|reflexivity].
  destruct (parse_authority r2) as [[h p] rest]. reflexivity.
Qed.
Lemma parse_drive x r : x <> 58 ->
  parse (x :: 58 :: r) =
  Val (Uri s_file [] [] (fix_slashes (x :: 58 :: r))
         (absolute_test s_file [] (fix_slashes (x :: 58 :: r)))).
Proof.
  intros H. unfold parse, parse_uri. change colon with 58.
  assert (E : find_char 58 (x :: 58 :: r) = Some 1%nat)
    by (apply (find_char_app 58 [x] r); cbn; intuition).
  rewrite E. reflexivity.
Qed.

Lemma parse_authority_cases t h p rest : parse_authority t = (h, p, rest) ->
  (h = t /\ p = [] /\ rest = [] /\ ~ In 47 t)
  \/ (starts 47 rest /\ ~ In 58 h /\ ~ In 47 h /\ ~ In 47 p).
Proof.
  unfold parse_authority. destruct (find_char slash t) as [n|] eqn:F.
  - apply find_char_some in F. destruct F as (a & b & -> & -> & Ha).
    rewrite firstn_length_app. rewrite (skipn_app (length a) a), skipn_all, Nat.sub_diag.
    cbn [app skipn].
    destruct (find_char colon a) as [k|] eqn:K; intros E; inversion E; subst; right.
    + apply find_char_some in K. destruct K as (a1 & a2 & -> & -> & Ha1).
      rewrite firstn_length_app, skipn_length_app1.
      split; [exists b; reflexivity|]. split; [exact Ha1|].
      split; intros K; apply Ha; apply in_or_app; [left; exact K|right; right; exact K].
    + apply find_char_none in K. split; [exists b; reflexivity|].
      split; [exact K|]. split; [exact Ha|]. intros [].
  - apply find_char_none in F. intros E. inversion E; subst. left. auto.
Qed.
Lemma parse_authority_length t h p rest :
  parse_authority t = (h, p, rest) -> (length rest <= length t)%nat.
Proof.
  unfold parse_authority. destruct (find_char slash t) as [n|].
  - destruct (find_char colon (firstn n t)); intros E; inversion E; rewrite skipn_length; lia.
  - intros E. inversion E. cbn. lia.
Qed.
Lemma parse_authority_none t : t <> [] -> parse_authority t = ([], [], t) -> starts 47 t.
Proof.
  intros N E. apply parse_authority_cases in E.
  destruct E as [(E & _)|(E & _)]; [congruence|exact E].
Qed.
Lemma parse_authority_rooted t : starts 47 t -> parse_authority t = ([], [], t).
Proof. intros (r & ->). reflexivity. Qed.
Lemma parse_authority_host h : ~ In 47 h -> parse_authority h = (h, [], []).
Proof.
  intros H. unfold parse_authority. rewrite (proj2 (find_char_none slash h)) by exact H.
  reflexivity.
Qed.
Lemma parse_authority_full h p path : ~ In 47 h -> ~ In 58 h -> ~ In 47 p -> starts 47 path ->
  parse_authority (h ++ match p with [] => [] | y :: q => 58 :: y :: q end ++ path) = (h, p, path).
Proof.
  intros H1 H2 H3 (r & ->). unfold parse_authority.
  rewrite app_assoc. change slash with 47.
  assert (A : ~ In 47 (h ++ match p with [] => [] | y :: q => 58 :: y :: q end)).
  { intros K. apply in_app_or in K. destruct K as [K|K]; [auto|].
    destruct p as [|q p]; [destruct K|]. destruct K as [K|K]; [discriminate|auto]. }
  rewrite find_char_app by exact A. rewrite firstn_length_app.
  rewrite (skipn_app (length _)), skipn_all, Nat.sub_diag. cbn [app skipn].
  destruct p as [|q p].
  - rewrite app_nil_r. rewrite (proj2 (find_char_none colon h)) by exact H2. reflexivity.
  - change colon with 58. rewrite find_char_app by exact H2.
    rewrite firstn_length_app, skipn_length_app1. reflexivity.
Qed.

Definition components (u : uri) : Prop := canonical (u_scheme u) (u_host u) (u_port u) (u_path u).
Definition consistent (u : uri) : Prop :=
  u_abs u = absolute_test (u_scheme u) (u_host u) (u_path u).

Lemma fix_id s : ~ In 92 s <-> fix_slashes s = s.
Proof.
  unfold fix_slashes. induction s as [|c s IH]; cbn [map In]; [split; auto|].
  destruct (Z.eqb_spec c 92) as [->|N].
  - split; [intros H; exfalso; auto|]. intros E. inversion E.
  - split; [intros H; f_equal; apply IH; auto|]. intros E. inversion E as [E'].
    rewrite E'. apply IH in E'. intuition.
Qed.
Lemma fix_no92 s : ~ In 92 (fix_slashes s).
Proof.
  unfold fix_slashes. intros H. apply in_map_iff in H. destruct H as (c & E & _).
  destruct (Z.eqb_spec c 92); [discriminate|congruence].
Qed.
Lemma fix_58 s : In 58 (fix_slashes s) -> In 58 s.
Proof.
  unfold fix_slashes. intros H. apply in_map_iff in H. destruct H as (c & E & K).
  destruct (Z.eqb_spec c 92); [discriminate|congruence].
Qed.

Lemma print_parse u : consistent u -> components u -> parse (as_string u) = Val u.
Proof.
  destruct u as [sc h p path ab]. unfold consistent, components, as_string. cbn [u_scheme u_host u_port u_path u_abs].
  intros ->. change colon with 58 in *.
  intros [(-> & -> & -> & H1 & H2)|(N & L & C & H)].
  - change (absolute_test [] [] path) with false. cbn [app]. rewrite parse_rel by exact H1. rewrite (proj1 (fix_id path)) by exact H2. reflexivity.
  - assert (ES : (match sc with [] => [] | z :: l => (z :: l) ++ [58] end) = sc ++ [58])
      by (destruct sc; [congruence|reflexivity]). rewrite ES. clear ES.
    rewrite <- (app_assoc sc [58]). cbn [app].
    rewrite parse_scheme by assumption.
    assert (NS : str_eqb sc [] = false) by (apply str_eqb_neq; exact N).
    destruct H as [(Nh & S & -> & ->)|[(Nh & S & C2 & S2 & R)|[(-> & -> & Np & R & D)
      |(-> & -> & R & D)]]].
    + assert (NH : str_eqb h [] = false) by (apply str_eqb_neq; exact Nh).
      unfold absolute_test at 1. rewrite NS, NH. cbn [negb andb orb app rest_parse].
      change (slash =? slash) with true. cbn iota.
      assert (EH : (match h with [] => [] | z :: l => z :: l ++ [] end) = h)
        by (destruct h; [congruence|rewrite app_nil_r; reflexivity]). rewrite EH, app_nil_r.
      rewrite parse_authority_host by exact S. reflexivity.
    + assert (NH : str_eqb h [] = false) by (apply str_eqb_neq; exact Nh).
      unfold absolute_test at 1. rewrite NS, NH. cbn [negb andb orb app rest_parse].
      change (slash =? slash) with true. cbn iota.
      assert (EH : (match h with [] => [] | z :: l =>
                z :: l ++ match p with [] => [] | y :: q => 58 :: y :: q end end)
                = h ++ match p with [] => [] | y :: q => 58 :: y :: q end)
        by (destruct h; [congruence|reflexivity]). rewrite EH.
      rewrite <- app_assoc. rewrite (parse_authority_full h p path) by assumption. reflexivity.
    + assert (NA : absolute_test sc [] path = false).
      { unfold absolute_test. cbn [str_eqb negb andb orb]. rewrite andb_false_r. cbn [orb].
        destruct (str_eqb sc s_file) eqn:F; [|reflexivity]. apply str_eqb_eq in F.
        destruct path as [|c path]; [reflexivity|]. cbn [str_eqb negb andb nth].
        destruct (Z.eqb_spec c slash) as [->|]; [exfalso; apply R; exists path; reflexivity|].
        cbn [orb]. apply Z.eqb_neq. intros E. apply D. split; [exact F|exact E]. }
      rewrite NA. cbn [app]. destruct path as [|c path]; [congruence|]. cbn [rest_parse].
      destruct (Z.eqb_spec c slash) as [->|]; [exfalso; apply R; exists path; reflexivity|].
      rewrite NA. reflexivity.
    + destruct (str_eqb sc s_file) eqn:F.
      * assert (NA : absolute_test sc [] path = true).
        { unfold absolute_test. rewrite F. destruct R as (r & ->). cbn. rewrite andb_false_r.
          reflexivity. }
        rewrite NA. cbn [app rest_parse]. change (slash =? slash) with true. cbn iota.
        rewrite parse_authority_rooted by exact R. rewrite NA. reflexivity.
      * assert (NA : absolute_test sc [] path = false).
        { unfold absolute_test. rewrite F. cbn. rewrite andb_false_r. reflexivity. }
        rewrite NA. cbn [app].
        destruct D as [->|(c & r & -> & Nc)]; [vm_compute in F; discriminate|].
        cbn [rest_parse]. change (47 =? slash) with true. cbn iota.
        destruct (Z.eqb_spec c slash); [contradiction|]. rewrite NA. reflexivity.
Qed.

Lemma parse_consistent s u : parse s = Val u -> consistent u.
Proof.
  unfold parse. destruct (parse_uri s) as [[[[sc h] p] pa]| |]; cbn; intros E; inversion E.
  reflexivity.
Qed.

Lemma colon_split s : In 58 s -> exists a b, s = a ++ 58 :: b /\ ~ In 58 a.
Proof.
  intros H. destruct (find_char 58 s) as [n|] eqn:F.
  - apply find_char_some in F. destruct F as (a & b & -> & _ & Ha). eauto.
  - apply find_char_none in F. contradiction.
Qed.

(** A text whose parse has no scheme is either colon-free or starts with a colon. *)
Lemma parse_no_scheme s u : parse s = Val u -> u_scheme u = [] ->
  ~ In 58 s /\ u = Uri [] [] [] (fix_slashes s) false
  \/ exists r, s = 58 :: r /\ rest_parse [] r = Val u.
Proof.
  intros P S. destruct (in_dec Z.eq_dec 58 s) as [I|I].
  - right. destruct (colon_split s I) as (a & b & -> & Ha).
    destruct (Nat.eq_dec (length a) 1) as [L|L].
    + destruct a as [|x [|]]; try discriminate L. cbn [app] in P.
      rewrite parse_drive in P by (intros ->; apply Ha; left; reflexivity).
      inversion P; subst u. discriminate S.
    + rewrite parse_scheme in P by assumption.
      assert (a = []) as ->.
      { unfold rest_parse in P. destruct b as [|c1 r1]; [discriminate|].
        destruct (c1 =? slash); [|inversion P; subst; exact S].
        destruct r1 as [|c2 r2]; [discriminate|].
        destruct (c2 =? slash); [|inversion P; subst; exact S].
        destruct (parse_authority r2) as [[? ?] ?]. inversion P; subst; exact S. }
      exists b. auto.
  - left. split; [exact I|]. rewrite parse_rel in P by exact I. inversion P. reflexivity.
Qed.

Lemma rest_parse_path sc r u : rest_parse sc r = Val u -> u_scheme u = sc /\
  ((u_host u = [] /\ u_port u = [] /\ u_path u = r /\ r <> []
    /\ forall t, r = 47 :: t -> exists c r', t = c :: r' /\ c <> 47)
   \/ exists t, r = 47 :: 47 :: t /\ parse_authority t = (u_host u, u_port u, u_path u)).
Proof.
  unfold rest_parse. change slash with 47. destruct r as [|c1 r1]; [discriminate|].
  destruct (Z.eqb_spec c1 47) as [->|N].
  - destruct r1 as [|c2 r2]; [discriminate|].
    destruct (Z.eqb_spec c2 47) as [->|N].
    + destruct (parse_authority r2) as [[h p] q] eqn:PA. intros E. inversion E; subst u. cbn.
      split; [reflexivity|]. right. exists r2. auto.
    + intros E. inversion E; subst u. cbn. split; [reflexivity|]. left.
      repeat split; try reflexivity; [discriminate|]. intros t Ht. inversion Ht. eauto.
  - intros E. inversion E; subst u. cbn. split; [reflexivity|]. left.
    repeat split; try reflexivity; [discriminate|]. intros t Ht. inversion Ht. congruence.
Qed.

Lemma parse_print s u : parse s = Val u -> parse (as_string u) = Val u -> components u.
Proof.
  intros P Q. pose proof (parse_consistent _ _ P) as HC.
  destruct u as [sc h p path ab]. unfold consistent, components in *.
  cbn [u_scheme u_host u_port u_path u_abs] in *.
  destruct (list_eq_dec Z.eq_dec sc []) as [->|NS].
  { (* no scheme *)
    left. subst ab.
    assert (AB : absolute_test [] h path = false) by reflexivity. rewrite AB in *.
    unfold as_string in Q. cbn [u_scheme u_host u_port u_path u_abs app] in Q.
    destruct (list_eq_dec Z.eq_dec h []) as [->|NH].
    - cbn [app] in Q.
      destruct (parse_no_scheme _ _ Q eq_refl) as [(I & E)|(r & E & Q2)].
      + injection E as E1 E2. split; [reflexivity|]. split; [reflexivity|].
        split; [exact E1|]. split; [exact I|]. rewrite E2. apply fix_no92.
      + exfalso. destruct (rest_parse_path _ _ _ Q2) as (_ & [(_ & _ & E3 & _)|(t & Et & PA)]);
          cbn [u_host u_port u_path] in *.
        * rewrite E3 in E. apply (f_equal (@length Z)) in E. cbn in E. lia.
        * apply parse_authority_length in PA. subst r path. cbn [length] in PA. lia.
    - exfalso.
      assert (EH : (match h with [] => [] | z :: l =>
                z :: l ++ match p with [] => [] | y :: q => colon :: y :: q end end)
                = h ++ match p with [] => [] | y :: q => colon :: y :: q end)
        by (destruct h; [congruence|reflexivity]). rewrite EH in Q. clear EH.
      (* how h came about *)
      destruct (parse_no_scheme _ _ P eq_refl) as [(_ & E)|(r0 & -> & P2)];
        [inversion E; subst; congruence|].
      destruct (rest_parse_path _ _ _ P2) as (_ & [(E & _)|(t0 & -> & PA0)]);
        cbn [u_host u_port u_path] in *; [congruence|].
      apply parse_authority_cases in PA0.
      destruct (parse_no_scheme _ _ Q eq_refl) as [(_ & E)|(r & E & Q2)];
        [inversion E; subst; congruence|].
      destruct (rest_parse_path _ _ _ Q2) as (_ & [(E2 & _)|(t & -> & PA)]);
        cbn [u_host u_port u_path] in *; [congruence|].
      destruct h as [|x h]; [congruence|]. cbn [app] in E. inversion E as [[E1 E3]]. subst x.
      destruct PA0 as [(E0 & -> & -> & S)|(_ & C & _)]; [|apply C; left; reflexivity].
      rewrite !app_nil_r in E3. rewrite <- E0 in S. rewrite E3 in S. apply S. right. left. reflexivity. }
  (* a scheme *)
  destruct (in_dec Z.eq_dec 58 s) as [I|I].
  2:{ rewrite parse_rel in P by exact I. inversion P; subst; congruence. }
  destruct (colon_split s I) as (a & b & -> & Ha).
  assert (DRIVE : sc = s_file -> h = [] -> p = [] -> path <> [] -> ~ starts 47 path ->
                  nth 1 path 0 = 58 -> False).
  { intros -> -> -> Np R N1.
    assert (AB : ab = true).
    { rewrite HC. unfold absolute_test. rewrite str_eqb_refl. cbn [negb str_eqb andb orb].
      rewrite N1. destruct path; [congruence|]. cbn. rewrite orb_true_r. reflexivity. }
    subst ab. rewrite AB in Q. unfold as_string in Q. cbn [u_scheme u_host u_port u_path u_abs] in Q.
    change (parse (s_file ++ 58 :: 47 :: 47 :: path) = Val (Uri s_file [] [] path true)) in Q.
    rewrite parse_scheme in Q by (vm_compute; intuition discriminate).
    destruct (rest_parse_path _ _ _ Q) as (_ & [(_ & _ & E & _)|(t & E & PA)]);
      cbn [u_host u_port u_path] in *.
    - apply (f_equal (@length Z)) in E. cbn in E. lia.
    - inversion E; subst t. apply parse_authority_none in PA; [|exact Np]. contradiction. }
  destruct (Nat.eq_dec (length a) 1) as [L|L].
  - destruct a as [|x [|]]; try discriminate L. cbn [app] in P.
    rewrite parse_drive in P by (intros ->; apply Ha; left; reflexivity).
    assert (Hu : Uri s_file [] [] (fix_slashes (x :: 58 :: b))
       (absolute_test s_file [] (fix_slashes (x :: 58 :: b))) = Uri sc h p path ab) by congruence.
    clear P. injection Hu as <- <- <- <- <-.
    right. split; [discriminate|]. split; [vm_compute; discriminate|].
    split; [vm_compute; intuition discriminate|].
    destruct (Z.eq_dec (if x =? 92 then slash else x) 47) as [E|E].
    + right. right. right. repeat split; auto. exists (fix_slashes (58 :: b)). cbn [fix_slashes map].
      rewrite E. reflexivity.
    + exfalso. apply DRIVE; auto; [discriminate|]. intros (r & K). inversion K. congruence.
  - rewrite parse_scheme in P by assumption.
    destruct (rest_parse_path _ _ _ P) as (Esc & Hc). cbn [u_scheme u_host u_port u_path] in *.
    subst a. right. split; [exact NS|]. split; [exact L|]. split; [exact Ha|].
    destruct Hc as [(-> & -> & <- & Np & HR)|(t & -> & PA)].
    + (* no authority *)
      destruct path as [|c r]; [congruence|].
      destruct (Z.eq_dec c 47) as [->|Nc].
      * right. right. right. repeat split; auto; [exists r; reflexivity|].
        right. destruct (HR r eq_refl) as (c & r' & -> & Hn). eauto.
      * right. right. left. repeat split; auto; [intros (r' & E); inversion E; congruence|].
        intros (F & N1). apply DRIVE; auto. intros (r' & E); inversion E; congruence.
    + pose proof (parse_authority_cases _ _ _ _ PA) as [(-> & -> & -> & S)|(R & C & S & S2)].
      * destruct t as [|x t].
        -- exfalso. unfold as_string in Q. cbn [u_scheme u_host u_port u_path u_abs app] in Q.
           assert (AB : ab = false).
           { rewrite HC. unfold absolute_test. cbn. rewrite !andb_false_r. reflexivity. }
           rewrite AB in Q. rewrite !app_nil_r in Q.
           assert (ES : (match sc with [] => [] | z :: l => z :: l ++ [colon] end) = sc ++ [58])
             by (destruct sc; [congruence|reflexivity]). rewrite ES in Q.
           rewrite parse_scheme in Q by assumption. discriminate Q.
        -- left. repeat split; auto. discriminate.
      * destruct (list_eq_dec Z.eq_dec h []) as [->|NH].
        2:{ right. left. auto. }
        right. right. right.
        assert (ES : (match sc with [] => [] | z :: l => z :: l ++ [colon] end) = sc ++ [58])
             by (destruct sc; [congruence|reflexivity]).
        unfold as_string in Q. cbn [u_scheme u_host u_port u_path u_abs app] in Q.
        rewrite ES in Q. rewrite <- app_assoc in Q. cbn [app] in Q.
        rewrite parse_scheme in Q by assumption.
        destruct (list_eq_dec Z.eq_dec sc s_file) as [->|NF].
        -- assert (AB : ab = true).
           { rewrite HC. destruct R as (r & ->). reflexivity. }
           rewrite AB in Q. cbn [app] in Q.
           destruct (rest_parse_path _ _ _ Q) as (_ & [(_ & Ep & _)|(t2 & E & PA2)]);
             cbn [u_host u_port u_path] in *; [subst p; auto|].
           inversion E; subst t2. rewrite parse_authority_rooted in PA2 by exact R.
           inversion PA2; subst p. auto.
        -- assert (AB : ab = false).
           { rewrite HC. unfold absolute_test. rewrite (str_eqb_neq sc s_file) by exact NF.
             cbn. rewrite andb_false_r. reflexivity. }
           rewrite AB in Q. cbn [app] in Q.
            destruct (rest_parse_path _ _ _ Q) as (_ & [(_ & Ep & _ & _ & HR)|(t2 & E & PA2)]);
             cbn [u_host u_port u_path] in *.
           ++ subst p. repeat split; auto. right. destruct R as (r & ->).
              destruct (HR r eq_refl) as (c & r' & -> & Hn). eauto.
           ++ exfalso. apply parse_authority_length in PA2. subst path. cbn [length] in PA2. lia.
Qed.

Lemma roundtrip_iff s u : parse s = Val u -> (parse (as_string u) = Val u <-> components u).
Proof.
  intros P. split; [apply (parse_print s u P)|].
  apply print_parse. exact (parse_consistent _ _ P).
Qed.
