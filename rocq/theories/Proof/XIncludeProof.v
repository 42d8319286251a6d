(** What is brought in reaches the handlers as XSLT says. *)
From Coq Require Import String.
From Verif.Model Require Import Base Attrs XSort XSheet Precedence XInclude.
From Verif.Spec Require Import XSheetSpec PrecedenceSpec XIncludeSpec.
From Verif.Proof Require Import Tac ContainersProof XSheetProof PrecedenceProof.
From Coq Require Import List Lia.
Import ListNotations.
Open Scope Z_scope.

Lemma href_gathered : forall {scope} (g : tag (scope := scope)) absolute n base h, refers absolute g n base h ->
  exists m, gather [must "href"] (g_atts g) = Some m /\ absolute base (lookup m (ascii_str "href")) = h.
Proof.
  intros scope g absolute n base h ((U & L) & On & O & Q & v & H & Nv & ->).
  destruct (gathers g [must "href"] ["href"]%string O U On) as (m & E & _).
  - constructor; [|constructor]. exists (must "href"). split; [vm_compute; reflexivity|left; reflexivity].
  - constructor; [|constructor]. intros _. exists "href"%string, v. split; [reflexivity|]. split; [vm_compute; reflexivity|]. split; assumption.
  - exists m. split; [exact E|]. f_equal. unfold gather in E. destruct (existsb _ _) in E; [discriminate E|].
    destruct O as (D & R & _). destruct H as (a & Ia & Ua & La & <-).
    refine (proj1 (gather_lookup _ (ascii_str "href") _ _ _ E _ Q D) a Ia Ua La).
    eapply Forall_impl; [|exact R]. intros b Hb. exact (proj1 Hb).
Qed.
Lemma joins_dec : forall {scope} (g : tag (scope := scope)),
  (is_xslt (g_uri g) && is_ g "import" = true <-> xsl g "import") /\ (is_xslt (g_uri g) && is_ g "include" = true <-> xsl g "include").
Proof.
  intros scope g. unfold is_xslt, is_, xsl. change xslt with xslt_uri. rewrite !Bool.andb_true_iff, !str_eqb_true. split; reflexivity.
Qed.
Lemma plain_tag : forall {scope} (g : tag (scope := scope)), ~ joins g -> is_xslt (g_uri g) && is_ g "import" = false /\ is_xslt (g_uri g) && is_ g "include" = false.
Proof.
  intros scope g H. destruct (joins_dec g) as [A B]. split; apply Bool.not_true_is_false; intro E; apply H; [right; apply A|left; apply B]; exact E.
Qed.
Lemma import_tag : forall {scope} (g : tag (scope := scope)), xsl g "import" -> is_xslt (g_uri g) && is_ g "import" = true.
Proof. intros scope g H. apply joins_dec. exact H. Qed.
Lemma include_tag : forall {scope} (g : tag (scope := scope)), xsl g "include" -> is_xslt (g_uri g) && is_ g "import" = false /\ is_xslt (g_uri g) && is_ g "include" = true.
Proof.
  intros scope g H. split; [|apply joins_dec; exact H]. apply Bool.not_true_is_false. intro E. apply joins_dec in E. destruct H as [_ H], E as [_ E]. rewrite H in E. vm_compute in E. discriminate E.
Qed.
Lemma next_done : forall A B (r : reply A) (f : A -> B), next r (fun a => Done (f a)) = match r with Done a => Done (f a) | Fails => Fails | Wild => Wild | Starved => Starved end.
Proof. intros A B [a| | |] f; reflexivity. Qed.
Lemma next_next : forall A B C (r : reply A) (f : A -> reply B) (k : B -> reply C), next (next r f) k = next r (fun a => next (f a) k).
Proof. intros A B C [a| | |] f k; reflexivity. Qed.

Section Includes.
  Context {scope : Type}.
  Notation tag := (tag (scope := scope)).
  Notation event := (event (scope := scope)).
  Notation heard := (heard (scope := scope)).
  Context {D : Type} (down : D -> precedence -> event -> res D) (begin : D -> D).
  Context (world : str -> option (document (scope := scope))) (absolute : str -> str -> str).
  Notation state := (state (D := D)).
  Notation unfolds := (unfolds world absolute).
  Notation play := (play (scope := scope) down begin).
  Notation all_included := (all_included down absolute).
  Notation include := (include down begin world absolute).
  Notation items := (list (item (piece (scope := scope)))).
  Definition inc (n : nat) (href : str) (s : state) : reply state := include n false (i_prec s) (i_kids s) href s.

  Lemma play_app : forall a b d t, play (a ++ b) d t = next (play a d t) (fun '(d, t) => play b d t).
  Proof.
    induction a as [|[x p] a IH]; intros b d t; [reflexivity|]. cbn [app XIncludeSpec.play]. destruct x as [|e|s|g].
    - apply IH.
    - rewrite next_next. destruct (takes_text down d p t); try reflexivity. cbn [next]. rewrite next_next. destruct (takes down a0 p e); try reflexivity. cbn [next]. apply IH.
    - apply IH.
    - rewrite next_next. destruct (takes_text down d p t); try reflexivity. cbn [next]. destruct (down a0 p (Start g)); try reflexivity. apply IH.
  Qed.
  Lemma play_never : forall l d t, play l d t <> Starved.
  Proof.
    assert (Tk : forall d p e, takes down d p e <> Starved) by (intros d p e; unfold takes; destruct (down d p e); discriminate).
    assert (Tt : forall d p s, takes_text down d p s <> Starved) by (intros d p [|z s]; [discriminate|apply Tk]).
    induction l as [|[x p] l IH]; intros d t; [discriminate|]. cbn [XIncludeSpec.play]. destruct x as [|e|s|g]; try apply IH.
    - pose proof (Tt d p t). destruct (takes_text down d p t) as [d'| | |]; try discriminate; [|congruence]. cbn [next].
      pose proof (Tk d' p e). destruct (takes down d' p e); try discriminate; [|congruence]. apply IH.
    - pose proof (Tt d p t). destruct (takes_text down d p t) as [d'| | |]; try discriminate; [|congruence]. cbn [next]. destruct (down d' p (Start g)); try discriminate. apply IH.
  Qed.

  (** Text and an event, when the IncludeHandler is not the content handler. *)
  Lemma pass_plays : forall e s, i_plugged s = false ->
    pass down e s = match play [(Tells e, i_prec s)] (i_down s) (i_buffer s) with Done (d, b) => Done (set_buffer b (set_down d s)) | Fails => Fails | Wild => Wild | Starved => Starved end.
  Proof.
    intros e [d b q bs p k im ic hr cl pu] Hp. cbn in Hp. subst q. unfold pass, flush. cbn [i_buffer i_plugged XIncludeSpec.play]. destruct b as [|z b].
    - cbn [empty next takes_text]. unfold deliver, takes. cbn [i_down i_prec]. destruct (down d p e); reflexivity.
    - cbn [empty takes_text]. unfold deliver at 1, takes at 1. cbn [i_down i_prec]. destruct (down d p (Characters (z :: b))) as [d'| | |]; try reflexivity.
      cbn [next]. unfold deliver, takes. cbn [i_down i_prec set_buffer set_down]. destruct (down d' p e); reflexivity.
  Qed.

  Definition pend (i : str * precedence * list str) (j : items * precedence) : Prop :=
    match i, j with
    | (h, p, c), (l, q) => p = q /\ ~ In h c /\ exists evs sub, world h = Some (Doc evs true) /\ unfolds false (c ++ [h]) h evs sub /\ l = Declares Begins :: sub
    end.
  Definition own (l : items) := concat (map own_of l).
  Definition lists (l : items) := concat (map lists_of l).
  Definition many (l : items) : nat := list_sum (map documents l).
  Lemma own_cons : forall i l, own (i :: l) = own_of i ++ own l. Proof. reflexivity. Qed.
  Lemma lists_cons : forall i l, lists (i :: l) = lists_of i ++ lists l. Proof. reflexivity. Qed.
  Lemma own_app : forall l m, own (l ++ m) = own l ++ own m. Proof. intros. unfold own. rewrite map_app. apply concat_app. Qed.
  Lemma lists_app : forall l m, lists (l ++ m) = lists l ++ lists m. Proof. intros. unfold lists. rewrite map_app. apply concat_app. Qed.
  Lemma many_app : forall l m, many (l ++ m) = (many l + many m)%nat. Proof. intros. unfold many. rewrite map_app. apply list_sum_app. Qed.
  Lemma own_spells : forall w, own (map (fun s => Declares (Spells s)) w) = map Spells w.
  Proof. induction w as [|s w IH]; [reflexivity|]. cbn [map]. rewrite own_cons, IH. reflexivity. Qed.
  Lemma lists_spells : forall w, lists (map (fun s => Declares (Spells (scope := scope) s)) w) = [].
  Proof. induction w as [|s w IH]; [reflexivity|]. cbn [map]. rewrite lists_cons, IH. reflexivity. Qed.
  Lemma many_spells : forall w, many (map (fun s => Declares (Spells (scope := scope) s)) w) = O.
  Proof. induction w as [|s w IH]; [reflexivity|exact IH]. Qed.

  (** What the events of a document do. *)
  Definition becomes (s : state) (l : items) (r : reply state) : Prop :=
    match play (tagged (i_prec s) (own l)) (i_down s) (i_buffer s) with
    | Done (d, b) => exists new c, Forall2 pend new (numbered (i_prec s) (i_kids s) (lists l)) /\
        r = Done (State d b false (i_base s) (i_prec s) (i_kids s + Z.of_nat (length (lists l))) (i_imports s ++ new) (i_includes s) (i_hrefs s) false c)
    | Fails => r = Fails
    | Wild => True
    | Starved => False
    end.
  Lemma becomes_then : forall s l m r k, i_closed s = false -> i_plugged s = false -> becomes s l r ->
    (forall s', i_closed s' = false -> i_plugged s' = false -> i_base s' = i_base s -> i_prec s' = i_prec s -> i_includes s' = i_includes s -> i_hrefs s' = i_hrefs s -> becomes s' m (k s')) ->
    becomes s (l ++ m) (next r k).
  Proof.
    intros s l m r k _ _ H K. unfold becomes in *. rewrite own_app, lists_app, tagged_app, play_app.
    destruct (play (tagged (i_prec s) (own l)) (i_down s) (i_buffer s)) as [[d b]| | |].
    - destruct H as (new & c & F & ->). cbn [next].
      specialize (K (State d b false (i_base s) (i_prec s) (i_kids s + Z.of_nat (length (lists l))) (i_imports s ++ new) (i_includes s) (i_hrefs s) false c) eq_refl eq_refl eq_refl eq_refl eq_refl eq_refl).
      cbn [i_prec i_down i_buffer i_base i_kids i_imports i_includes i_hrefs] in K.
      destruct (play (tagged (i_prec s) (own m)) d b) as [[d' b']| | |]; try exact K.
      destruct K as (new' & c' & F' & E). exists (new ++ new'), c'. split.
      + rewrite numbered_app. apply Forall2_app; assumption.
      + rewrite E, app_length, <- app_assoc, Nat2Z.inj_add, Z.add_assoc. reflexivity.
    - subst r. reflexivity.
    - exact I.
    - destruct H.
  Qed.
  Lemma becomes_nil : forall s, i_closed s = false -> i_plugged s = false -> becomes s [] (Done s).
  Proof.
    intros [d b q bs p k im ic hr cl pu] H1 H2. cbn in H1, H2. subst. unfold becomes. cbn. exists [], pu. split; [constructor|]. rewrite app_nil_r, Z.add_0_r. reflexivity.
  Qed.
  Lemma plugged_same : forall s : state, i_plugged s = false -> plug false s = s.
  Proof. intros [d b q bs p k im ic hr cl pu] H. cbn in H. subst. reflexivity. Qed.
  Lemma becomes_pass : forall s e, i_closed s = false -> i_plugged s = false -> becomes s [Declares (Tells e)] (pass down e s).
  Proof.
    intros s e H1 H2. rewrite pass_plays by exact H2. destruct s as [d b q bs p k im ic hr cl pu]. cbn in H1, H2. subst. unfold becomes. cbn [own lists map concat own_of lists_of app tagged i_prec i_down i_buffer].
    pose proof (play_never [(Tells e, p)] d b) as Ns. destruct (play [(Tells e, p)] d b) as [[d' b']| | |]; try reflexivity; [|congruence].
    exists [], pu. split; [constructor|]. rewrite app_nil_r. cbn. rewrite Z.add_0_r. reflexivity.
  Qed.
  Lemma becomes_text : forall s t, i_closed s = false -> i_plugged s = false -> becomes s [Declares (Spells t)] (include_text t s).
  Proof.
    intros [d b q bs p k im ic hr cl pu] t H1 H2. cbn in H1, H2. subst. unfold becomes. cbn. exists [], pu. split; [constructor|]. rewrite app_nil_r, Z.add_0_r. reflexivity.
  Qed.

  Lemma all_app : forall f l m (s : state), all_included f (l ++ m) s = next (all_included f l s) (all_included f m).
  Proof. intros f l m. induction l as [|e l IH]; intro s; [reflexivity|]. cbn [app XInclude.all_included]. rewrite next_next. destruct (included down absolute f e s); try reflexivity. apply IH. Qed.
  Fixpoint spelled (w : list str) (b : str) : str := match w with [] => b | s :: w => spelled w (b ++ s) end.
  Lemma whites : forall f w (s : state), Forall white w -> all_included f (map HText w) s = Done (match w with [] => s | _ => set_buffer (spelled w (i_buffer s)) (plug false s) end).
  Proof.
    intros f. induction w as [|t w IH]; intros s H; [reflexivity|]. pose proof (Forall_inv H) as Ht. apply white_blank in Ht.
    cbn [map XInclude.all_included included]. unfold include_text. rewrite Ht, Bool.andb_false_r. cbn [next]. rewrite IH by exact (Forall_inv_tail H). destruct w; reflexivity.
  Qed.
  Lemma play_spells : forall w p d b, play (tagged p (map Spells w)) d b = Done (d, spelled w b).
  Proof. induction w as [|s w IH]; intros p d b; [reflexivity|]. cbn [map tagged]. cbn [XIncludeSpec.play]. apply IH. Qed.

  (** A document that is brought in. *)
  Lemma include_brings : forall n h s evs sub import p k, world h = Some (Doc evs true) -> ~ In h (i_includes s) ->
    (forall s', i_closed s' = false -> i_plugged s' = false -> i_base s' = h -> i_includes s' = i_includes s ++ [h] -> becomes s' sub (all_included (inc n) evs s')) ->
    i_closed s = false ->
    match play (tagged p (own (Declares Begins :: sub))) (i_down s) (i_buffer s) with
    | Done (d, b) => exists new c, Forall2 pend new (numbered p k (lists sub)) /\
        include (S n) import p k h s = Done (State d b false (i_base s) p (k + Z.of_nat (length (lists sub))) (i_imports s ++ new) (i_includes s) (i_hrefs s) false c)
    | Fails => include (S n) import p k h s = Fails
    | Wild => True
    | Starved => False
    end.
  Proof.
    intros n h s evs sub import p k W Nh H Hc. destruct s as [d b q bs p0 k0 im ic hr cl pu]. cbn in Hc, Nh. subst cl. cbn [XInclude.include i_includes].
    assert (E : existsb (str_eqb h) ic = false).
    { apply Bool.not_true_is_false. intro E. apply existsb_exists in E as (x & I & E). apply str_eqb_true in E. subst. exact (Nh I). }
    rewrite E, W. cbn [d_events d_ok]. rewrite own_cons. cbn [own_of app tagged map]. cbn [XIncludeSpec.play i_down i_buffer].
    set (s2 := set_down _ _). specialize (H s2 eq_refl eq_refl eq_refl eq_refl). unfold becomes in H. cbn [s2 set_down plug set_precedence set_base set_includes i_prec i_down i_buffer i_kids i_imports i_includes i_hrefs i_base] in H.
    change (fun href s => include n false (i_prec s) (i_kids s) href s) with (inc n).
    change (map (fun t => (t, p)) (own sub)) with (tagged p (own sub)).
    destruct (play (tagged p (own sub)) (begin d) b) as [[d' b']| | |].
    - destruct H as (new & c & F & ->). exists new, c. split; [exact F|]. cbn [next set_base set_includes i_base i_includes i_down i_buffer i_plugged i_prec i_kids i_imports i_hrefs i_closed i_pushed].
      rewrite removelast_last. reflexivity.
    - rewrite H. reflexivity.
    - exact I.
    - exact H.
  Qed.
  Lemma included_becomes : forall chain base evs l, unfolds false chain base evs l -> forall n s, (many l <= n)%nat ->
    i_closed s = false -> i_plugged s = false -> i_base s = base -> i_includes s = chain -> becomes s l (all_included (inc n) evs s).
  Proof.
    intros chain base evs l H. remember false as main eqn:Em. induction H as [main chain base|main chain base e l items He Hl IH|main chain base g h w evs l sub items Hg Nh W Hs IHs Fw Mw Hl IH|main chain base g h w evs l sub items Hg Nh W Hs IHs Fw Mw Hl IH];
      subst main; intros n s Hn H1 H2 H3 H4.
    - apply becomes_nil; assumption.
    - cbn [XInclude.all_included]. change (Declares (piece_of e) :: items) with ([Declares (piece_of e)] ++ items).
      apply becomes_then; [exact H1|exact H2| |].
      + destruct e as [g|u lo|t]; cbn [included piece_of].
        * unfold include_start. destruct (plain_tag g He) as [-> ->]. rewrite H1, plugged_same by exact H2. apply becomes_pass; assumption.
        * unfold include_end. rewrite H1. cbn [andb]. rewrite plugged_same by exact H2. apply becomes_pass; assumption.
        * apply becomes_text; assumption.
      + intros s' A1 A2 A3 A4 A5 A6. apply IH; try assumption; try reflexivity; congruence.
    - assert (Hm : (many (Declares Begins :: sub) + many items < n)%nat).
      { rewrite many_app, many_spells in Hn. unfold many in Hn |- *. cbn [map list_sum fold_right documents] in Hn |- *. unfold list_sum in *. lia. }
      destruct n as [|n]; [lia|]. clear Hn.
      change (HStart g :: map HText w ++ HEnd xslt (ascii_str "include") :: l) with ([HStart g] ++ map HText w ++ [HEnd xslt (ascii_str "include")] ++ l).
      rewrite app_assoc, app_assoc, all_app.
      replace (map (fun s0 => Declares (Spells s0)) w ++ Includes (Declares Begins :: sub) :: items)
        with ((map (fun s0 => Declares (Spells s0)) w ++ [Includes (Declares Begins :: sub)]) ++ items) by (rewrite <- app_assoc; reflexivity).
      apply becomes_then; [exact H1|exact H2| |].
      + destruct (href_gathered g absolute _ _ _ Hg) as (m & Eg & Eh). destruct Hg as [Xg _]. destruct (include_tag g Xg) as [T1 T2].
        rewrite all_app, all_app. cbn [XInclude.all_included included]. unfold include_start. rewrite H1, T1, T2. unfold validate_href. rewrite Eg. cbn [next]. rewrite H3, Eh.
        rewrite whites by exact Fw. cbn [next].
        destruct s as [d b q bs p k im ic hr cl pu]. cbn in H1, H2, H3, H4. subst cl q bs ic. cbn [set_pushed set_hrefs close i_down i_buffer i_plugged i_base i_prec i_kids i_imports i_includes i_hrefs i_closed i_pushed].
        match goal with |- becomes _ _ (next (include_end _ _ _ _ ?s1) _) =>
          assert (Es : s1 = State d (spelled w b) false base p k im chain (hr ++ [h]) true (fst pu, S (snd pu))) by (destruct w; reflexivity); rewrite Es end.
        unfold include_end. cbn [i_closed]. change (is_xslt xslt) with true. change (str_eqb (ascii_str "include") (ascii_str "include")) with true. cbn [andb close i_down i_buffer i_plugged i_base i_prec i_kids i_imports i_includes i_hrefs i_closed i_pushed].
        assert (Eh' : forall (A : Type) (x y : A), match hr ++ [h] with [] => x | _ :: _ => y end = y) by (intros; destruct hr; reflexivity).
        rewrite Eh'. rewrite last_last. unfold inc at 1. cbn [i_prec i_kids].
        unfold becomes. cbn [i_prec i_down i_buffer i_kids i_base i_imports i_includes i_hrefs].
        rewrite own_app, own_spells, lists_app, lists_spells, tagged_app, play_app, play_spells. cbn [next app].
        unfold own, lists. cbn [map concat own_of lists_of app]. rewrite !app_nil_r.
        set (s1 := State d (spelled w b) false base p k im chain (hr ++ [h]) false (fst pu, S (snd pu))).
        change (close false (State d (spelled w b) false base p k im chain (hr ++ [h]) true (fst pu, S (snd pu)))) with s1. change (i_prec s1) with p. change (i_kids s1) with k.
        assert (B := include_brings n h s1 evs sub false p k W Nh). cbn [i_closed s1 i_down i_buffer i_base i_imports i_includes i_hrefs] in B.
        rewrite own_cons in B. cbn [own_of app] in B. fold (own sub). fold (lists sub). cbn [app].
        assert (Hs' : forall s', i_closed s' = false -> i_plugged s' = false -> i_base s' = h -> i_includes s' = chain ++ [h] -> becomes s' sub (all_included (inc n) evs s')).
        { intros s' A1 A2 A3 A4. apply IHs; try assumption; try reflexivity. unfold many in Hm |- *. cbn [map list_sum fold_right documents] in Hm. unfold list_sum in *. lia. }
        specialize (B Hs' eq_refl).
        destruct (play (tagged p (Begins :: own sub)) d (spelled w b)) as [[d' b']| | |].
        * destruct B as (new & c & F & B). exists new, c. split; [exact F|]. rewrite B. cbn [next set_hrefs i_hrefs]. rewrite removelast_last. destruct hr; reflexivity.
        * rewrite B. reflexivity.
        * exact I.
        * exact B.
      + intros s' A1 A2 A3 A4 A5 A6. apply IH; try assumption; try reflexivity; try congruence. lia.
    - assert (Hm : (many items <= n)%nat).
      { cbn [app] in Hn. unfold many in Hn |- *. cbn [map list_sum fold_right documents] in Hn |- *. rewrite map_app, list_sum_app in Hn. unfold list_sum in *. lia. }
      change (HStart g :: map HText w ++ HEnd xslt (ascii_str "import") :: l) with ([HStart g] ++ map HText w ++ [HEnd xslt (ascii_str "import")] ++ l).
      rewrite app_assoc, app_assoc, all_app.
      change ([] ++ Imports (Declares Begins :: sub) :: map (fun s0 => Declares (Spells s0)) w ++ items)
        with ((Imports (Declares Begins :: sub) :: map (fun s0 => Declares (Spells s0)) w) ++ items).
      apply becomes_then; [exact H1|exact H2| |].
      + destruct (href_gathered g absolute _ _ _ Hg) as (m & Eg & Eh). destruct Hg as [Xg _]. pose proof (import_tag g Xg) as T1.
        rewrite all_app, all_app. cbn [XInclude.all_included included]. unfold include_start. rewrite H1, T1. unfold validate_href. rewrite Eg. cbn [next]. rewrite H3, Eh.
        rewrite whites by exact Fw. cbn [next].
        destruct s as [d b q bs p k im ic hr cl pu]. cbn in H1, H2, H3, H4. subst cl q bs ic. cbn [set_pushed set_imports set_precedence close i_down i_buffer i_plugged i_base i_prec i_kids i_imports i_includes i_hrefs i_closed i_pushed].
        match goal with |- becomes _ _ (next (include_end _ _ _ _ ?s1) _) =>
          assert (Es : s1 = State d (spelled w b) false base p (k + 1) (im ++ [(h, p ++ [k + 1], chain)]) chain hr true (S (fst pu), snd pu)) by (destruct w; reflexivity); rewrite Es end.
        unfold include_end. cbn [i_closed]. change (is_xslt xslt) with true. change (str_eqb (ascii_str "import") (ascii_str "include")) with false. cbn [andb close i_hrefs next].
        unfold becomes. cbn [i_prec i_down i_buffer i_kids i_base i_imports i_includes i_hrefs].
        rewrite own_cons, own_spells, lists_cons, lists_spells. cbn [own_of lists_of app]. rewrite play_spells. exists [(h, p ++ [k + 1], chain)], (S (fst pu), snd pu). split.
        * cbn [numbered]. constructor; [|constructor]. split; [reflexivity|]. split; [exact Nh|]. exists evs, sub. auto.
        * destruct hr; reflexivity.
      + intros s' A1 A2 A3 A4 A5 A6. apply IH; try assumption; try reflexivity; try congruence.
  Qed.

  (** * The main document *)
  Notation main_event := (main_event down begin world absolute).
  Notation main_events := (main_events down begin world absolute).
  Lemma flush_takes : forall s, i_plugged s = false ->
    flush down s = match takes_text down (i_down s) (i_prec s) (i_buffer s) with Done d => Done (set_buffer [] (set_down d s)) | Fails => Fails | Wild => Wild | Starved => Starved end.
  Proof.
    intros [d b q bs p k im ic hr cl pu] Hp. cbn in Hp. subst q. unfold flush. cbn [i_buffer i_plugged i_down i_prec]. destruct b as [|z b]; [reflexivity|].
    cbn [empty takes_text]. unfold deliver, takes. cbn [i_down i_prec]. destruct (down d p (Characters (z :: b))); reflexivity.
  Qed.
  Lemma main_app : forall n l m s, main_events n (l ++ m) s = next (main_events n l s) (main_events n m).
  Proof. intros n l m. induction l as [|e l IH]; intro s; [reflexivity|]. cbn [app XInclude.main_events]. rewrite next_next. destruct (main_event n e s); try reflexivity. apply IH. Qed.
  Lemma main_plain : forall n e s, plain_event e -> i_closed s = false -> i_plugged s = false -> becomes s [Declares (piece_of e)] (main_event n e s).
  Proof.
    intros n e s He H1 H2. destruct e as [g|u lo|t]; cbn [XInclude.main_event piece_of].
    - assert (B := becomes_pass s (Start g) H1 H2). unfold pass in B. rewrite flush_takes in B |- * by exact H2. destruct s as [d b q bs p k im ic hr cl pu]. cbn in H1, H2. subst.
      cbn [i_down i_prec i_buffer] in B |- *. unfold becomes in *. cbn [i_prec i_down i_buffer own lists map concat own_of lists_of app tagged XIncludeSpec.play] in B |- *.
      destruct (takes_text down d p b) as [d'| | |]; cbn [next] in B |- *; try exact B. unfold deliver, takes in B. unfold takes. cbn [set_buffer set_down i_down i_prec i_plugged] in B |- *.
      destruct (down d' p (Start g)); try exact B; exact I.
    - assert (B := becomes_pass s End H1 H2). unfold pass in B. rewrite flush_takes in B |- * by exact H2.
      destruct (takes_text down (i_down s) (i_prec s) (i_buffer s)) as [d'| | |]; cbn [next] in B |- *; try exact B. cbn [set_buffer set_down i_plugged]. rewrite H2. exact B.
    - assert (B := becomes_text s t H1 H2). unfold include_text in B. rewrite H1 in B. cbn [andb] in B. rewrite plugged_same in B by exact H2. exact B.
  Qed.
  Lemma started_include : forall g m h d b q bs p k im ic hr pu, gather [must "href"] (g_atts g) = Some m -> absolute bs (lookup m (ascii_str "href")) = h -> xsl g "include" ->
    include_start down absolute g (State d b q bs p k im ic hr false pu) = Done (State d b q bs p k im ic (hr ++ [h]) true (fst pu, S (snd pu))).
  Proof.
    intros g m h d b q bs p k im ic hr pu Eg Eh Xg. destruct (include_tag g Xg) as [T1 T2]. unfold include_start. cbn [i_closed]. rewrite T1, T2. unfold validate_href. rewrite Eg. cbn [next i_base]. rewrite Eh. reflexivity.
  Qed.
  Lemma started_import : forall g m h d b q bs p k im ic hr pu, gather [must "href"] (g_atts g) = Some m -> absolute bs (lookup m (ascii_str "href")) = h -> xsl g "import" ->
    include_start down absolute g (State d b q bs p k im ic hr false pu) = Done (State d b q bs p (k + 1) (im ++ [(h, p ++ [k + 1], ic)]) ic hr true (S (fst pu), snd pu)).
  Proof.
    intros g m h d b q bs p k im ic hr pu Eg Eh Xg. pose proof (import_tag g Xg) as T1. unfold include_start. cbn [i_closed]. rewrite T1. unfold validate_href. rewrite Eg. cbn [next i_base]. rewrite Eh. reflexivity.
  Qed.
  Lemma main_becomes : forall chain base evs l, unfolds true chain base evs l -> forall n s, (many l <= n)%nat ->
    i_closed s = false -> i_plugged s = false -> i_base s = base -> i_includes s = chain -> i_hrefs s = [] -> becomes s l (main_events n evs s).
  Proof.
    intros chain base evs l H. remember true as main eqn:Em. induction H as [main chain base|main chain base e l items He Hl IH|main chain base g h w evs l sub items Hg Nh W Hs _ Fw Mw Hl IH|main chain base g h w evs l sub items Hg Nh W Hs _ Fw Mw Hl IH];
      subst main; intros n s Hn H1 H2 H3 H4 H5.
    - apply becomes_nil; assumption.
    - cbn [XInclude.main_events]. change (Declares (piece_of e) :: items) with ([Declares (piece_of e)] ++ items).
      apply becomes_then; [exact H1|exact H2|apply main_plain; assumption|].
      intros s' A1 A2 A3 A4 A5 A6. apply IH; try assumption; try reflexivity; congruence.
    - rewrite (Mw eq_refl) in *. clear Mw Fw w. cbn [map app].
      assert (Hm : (many sub + many items < n)%nat).
      { unfold many in Hn |- *. cbn [app map list_sum fold_right documents] in Hn |- *. unfold list_sum in *. lia. }
      destruct n as [|n]; [lia|]. clear Hn.
      change (HStart g :: HEnd xslt (ascii_str "include") :: l) with ([HStart g; HEnd xslt (ascii_str "include")] ++ l).
      change (Declares (Asks g) :: Includes (Declares Begins :: sub) :: items) with ([Declares (Asks g); Includes (Declares Begins :: sub)] ++ items).
      rewrite main_app. apply becomes_then; [exact H1|exact H2| |].
      + destruct (href_gathered g absolute _ _ _ Hg) as (m & Eg & Eh). destruct Hg as [Xg _]. destruct (include_tag g Xg) as [T1 T2].
        cbn [XInclude.main_events XInclude.main_event]. rewrite flush_takes by exact H2.
        destruct s as [d b q bs p k im ic hr cl pu]. cbn in H1, H2, H3, H4, H5. subst cl q bs ic hr. unfold becomes. cbn [i_prec i_down i_buffer i_kids i_base i_imports i_includes i_hrefs].
        unfold own, lists. cbn [map concat own_of lists_of app]. rewrite !app_nil_r. fold (own sub). fold (lists sub). cbn [tagged map XIncludeSpec.play].
        destruct (takes_text down d p b) as [d1| | |] eqn:Et; cbn [next]; try reflexivity; [|destruct b; [discriminate Et|cbn in Et; unfold takes in Et; destruct (down d p (Characters (z :: b))); discriminate Et]].
        cbn [set_buffer set_down i_down i_buffer i_plugged i_base i_prec i_kids i_imports i_includes i_hrefs i_closed i_pushed].
        destruct (down d1 p (Start g)) as [d2| | |]; try exact I; [reflexivity|].
        change (plug true (set_buffer [] (set_down d1 (State d b false base p k im chain [] false pu)))) with (State d1 [] true base p k im chain [] false pu).
        rewrite (started_include g m h _ _ _ _ _ _ _ _ _ _ Eg Eh Xg). cbn [app next].
        unfold flush. cbn [i_buffer empty next i_plugged]. unfold include_end. cbn [i_closed]. change (is_xslt xslt) with true. change (str_eqb (ascii_str "include") (ascii_str "include")) with true.
        cbn [andb close i_down i_buffer i_plugged i_base i_prec i_kids i_imports i_includes i_hrefs i_closed i_pushed].
        cbn [app last].
        match goal with |- context [XInclude.include _ _ _ _ (S n) false p k h ?s1] => set (s2 := s1) end.
        assert (Hs' : forall s', i_closed s' = false -> i_plugged s' = false -> i_base s' = h -> i_includes s' = chain ++ [h] -> becomes s' sub (all_included (inc n) evs s')).
        { intros s' A1 A2 A3 A4. apply (included_becomes _ _ _ _ Hs); try assumption. lia. }
        assert (B := include_brings n h s2 evs sub false p k W Nh Hs' eq_refl).
        cbn [i_closed s2 i_down i_buffer i_base i_imports i_includes i_hrefs] in B. rewrite own_cons in B. cbn [own_of app tagged map XIncludeSpec.play] in B.
        change (i_down s2) with d1 in B. change (i_buffer s2) with (@nil Z) in B.
        destruct (play (map (fun t => (t, p)) (own sub)) (begin d1) []) as [[d' b']| | |].
        * destruct B as (new & c & F & B). exists new, c. split; [exact F|]. rewrite B. reflexivity.
        * rewrite B. reflexivity.
        * exact I.
        * exact B.
      + intros s' A1 A2 A3 A4 A5 A6. apply IH; try assumption; try reflexivity; try congruence. lia.
    - rewrite (Mw eq_refl) in *. clear Mw Fw w. cbn [map app].
      assert (Hm : (many items <= n)%nat).
      { unfold many in Hn |- *. cbn [app map list_sum fold_right documents] in Hn |- *. unfold list_sum in *. lia. }
      change (HStart g :: HEnd xslt (ascii_str "import") :: l) with ([HStart g; HEnd xslt (ascii_str "import")] ++ l).
      change (Declares (Asks g) :: Imports (Declares Begins :: sub) :: items) with ([Declares (Asks g); Imports (Declares Begins :: sub)] ++ items).
      rewrite main_app. apply becomes_then; [exact H1|exact H2| |].
      + destruct (href_gathered g absolute _ _ _ Hg) as (m & Eg & Eh). destruct Hg as [Xg _]. pose proof (import_tag g Xg) as T1.
        cbn [XInclude.main_events XInclude.main_event]. rewrite flush_takes by exact H2.
        destruct s as [d b q bs p k im ic hr cl pu]. cbn in H1, H2, H3, H4, H5. subst cl q bs ic hr. unfold becomes. cbn [i_prec i_down i_buffer i_kids i_base i_imports i_includes i_hrefs].
        unfold own, lists. cbn [map concat own_of lists_of app]. cbn [tagged map XIncludeSpec.play].
        destruct (takes_text down d p b) as [d1| | |] eqn:Et; cbn [next]; try reflexivity; [|destruct b; [discriminate Et|cbn in Et; unfold takes in Et; destruct (down d p (Characters (z :: b))); discriminate Et]].
        cbn [set_buffer set_down i_down i_buffer i_plugged i_base i_prec i_kids i_imports i_includes i_hrefs i_closed i_pushed].
        destruct (down d1 p (Start g)) as [d2| | |]; try exact I; [reflexivity|].
        change (plug true (set_buffer [] (set_down d1 (State d b false base p k im chain [] false pu)))) with (State d1 [] true base p k im chain [] false pu).
        rewrite (started_import g m h _ _ _ _ _ _ _ _ _ _ Eg Eh Xg). cbn [app next].
        unfold flush. cbn [i_buffer empty next i_plugged]. unfold include_end. cbn [i_closed]. change (is_xslt xslt) with true. change (str_eqb (ascii_str "import") (ascii_str "include")) with false.
        cbn [andb next]. exists [(h, p ++ [k + 1], chain)], (S (fst pu), snd pu). split.
        * cbn [numbered]. constructor; [|constructor]. split; [reflexivity|]. split; [exact Nh|]. exists evs, sub. auto.
        * reflexivity.
      + intros s' A1 A2 A3 A4 A5 A6. apply IH; try assumption; try reflexivity; try congruence.
  Qed.

  (** * The imports *)
  Notation unwind_imports := (unwind_imports down begin world absolute).
  Notation waiting := (list (items * precedence)).
  Definition load (q : waiting) : nat := list_sum (map (fun lp => S (many (fst lp))) q).
  Lemma load_app : forall a b, load (a ++ b) = (load a + load b)%nat.
  Proof. intros a b. unfold load. rewrite map_app. apply list_sum_app. Qed.
  Lemma load_numbered : forall p l k, (load (numbered p k (lists l)) <= many l)%nat.
  Proof.
    intros p l k. assert (W : forall ls k, load (numbered p k ls) = list_sum (map (fun l => S (many l)) ls)).
    { induction ls as [|m ls IH]; intros j; [reflexivity|]. unfold load in *. cbn [numbered map list_sum fold_right fst]. f_equal. apply IH. }
    rewrite W. assert (I : forall i : item (piece (scope := scope)), (list_sum (map (fun l => S (many l)) (lists_of i)) <= documents i)%nat).
    { induction i as [t|m H|m H] using item_ind2; cbn [lists_of documents].
      - apply Nat.le_refl.
      - apply Nat.le_trans with (list_sum (map documents m)); [|lia]. induction H as [|x m E H IH]; [apply Nat.le_refl|]. cbn [map concat]. rewrite map_app, list_sum_app. cbn [list_sum fold_right]. unfold list_sum in *. lia.
      - cbn. unfold many. lia. }
    induction l as [|x l IH]; [apply Nat.le_refl|]. rewrite lists_cons, map_app, list_sum_app. unfold many in *. cbn [map list_sum fold_right]. specialize (I x). unfold many in I. unfold list_sum in *. lia.
  Qed.
  Lemma unwinds : forall n s ls, Forall2 pend (i_imports s) ls -> (load ls <= n)%nat -> i_closed s = false ->
    match play (added_pending ls) (i_down s) (i_buffer s) with
    | Done (d, b) => exists s', unwind_imports n s = Done s' /\ i_down s' = d
    | Fails => unwind_imports n s = Fails
    | Wild => True
    | Starved => False
    end.
  Proof.
    induction n as [|n IH]; intros s ls F L Hc.
    - destruct ls as [|x ls]; [|unfold load in L; cbn [map list_sum fold_right] in L; lia]. inversion F as [E|]; subst. cbn. rewrite <- E. exists s. split; reflexivity.
    - destruct ls as [|[l p] ls _] using rev_ind.
      + inversion F as [E|]; subst. cbn. rewrite <- E. exists s. split; reflexivity.
      + apply Forall2_app_inv_r in F as (im & last_ & Fi & Fl & Ei). inversion Fl as [|[[h p'] c] y la lb Hp Fn Ea Eb]; subst. inversion Fn; subst. clear Fl Fn.
        destruct Hp as (-> & Nh & evs & sub & W & U & ->).
        rewrite load_app in L. unfold load at 2 in L. cbn [map list_sum fold_right fst] in L.
        assert (Lm : (many sub + load ls <= n)%nat) by (unfold many in L |- *; cbn [map list_sum fold_right documents] in L |- *; unfold list_sum in *; lia).
        cbn [XInclude.unwind_imports]. rewrite Ei. rewrite app_length. cbn [length]. replace (length im + 1 - 1)%nat with (length im) by lia.
        rewrite nth_error_app2, Nat.sub_diag by lia. cbn [nth_error].
        assert (Eh' : forall (A : Type) (x y : A), match im ++ [(h, p, c)] with [] => x | _ :: _ => y end = y) by (intros; destruct im; reflexivity).
        rewrite Eh'. clear Eh'.
        assert (Hs' : forall s', i_closed s' = false -> i_plugged s' = false -> i_base s' = h -> i_includes s' = c ++ [h] -> becomes s' sub (all_included (inc n) evs s')).
        { intros s' A1 A2 A3 A4. apply (included_becomes _ _ _ _ U); try assumption. lia. }
        assert (B := include_brings n h (set_includes c s) evs sub true p 0 W Nh Hs' Hc).
        change (i_down (set_includes c s)) with (i_down s) in B. change (i_buffer (set_includes c s)) with (i_buffer s) in B. change (i_imports (set_includes c s)) with (i_imports s) in B.
        rewrite pending_app. unfold added_pending at 1. cbn [rev app map concat fst snd]. rewrite app_nil_r. unfold tree_of. rewrite added_eq, <- app_assoc, play_app.
        change (concat (map own_of (Declares Begins :: sub))) with (own (Declares Begins :: sub)).
        destruct (play (tagged p (own (Declares Begins :: sub))) (i_down s) (i_buffer s)) as [[d b]| | |].
        * destruct B as (new & cc & Fnew & B). rewrite B. cbn [next]. cbn [i_imports]. rewrite Ei. rewrite <- app_assoc.
          rewrite firstn_app, Nat.sub_diag, firstn_all. cbn [firstn]. rewrite app_nil_r.
          replace (skipn (S (length im)) (im ++ [(h, p, c)] ++ new)) with new by (rewrite skipn_app, skipn_all2 by lia; replace (S (length im) - length im)%nat with 1%nat by lia; reflexivity).
          match goal with |- context [XInclude.unwind_imports _ _ _ _ n ?s1] => set (s2 := s1) end.
          rewrite imported_all. change (concat (map lists_of (Declares Begins :: sub))) with (lists sub). rewrite <- added_numbered, <- pending_app.
          specialize (IH s2 (ls ++ numbered p 0 (lists sub))). change (i_imports s2) with (im ++ new) in IH. change (i_down s2) with d in IH. change (i_buffer s2) with b in IH.
          apply IH; [apply Forall2_app; assumption| |reflexivity]. rewrite load_app. pose proof (load_numbered p sub 0). lia.
        * rewrite B. reflexivity.
        * exact I.
        * exact B.
  Qed.
  Theorem compiled_all : forall base evs l n d ok, unfolds true [] base evs l -> (many l <= n)%nat ->
    let told := play (concat (map (fun x => map (fun t => (t, code (fst x))) (snd x)) (rev (visit [] (tree_of l))))) (begin d) [] in
    told <> Wild -> compile_all down begin world absolute n base (Doc evs ok) d = next told (fun '(d, _) => Done d).
  Proof.
    intros base evs l n d ok U L. cbv zeta. assert (C : concat (map (fun x => map (fun t => (t, code (fst x))) (snd x)) (rev (visit [] (tree_of l)))) = added initial_precedence (tree_of l)).
    { pose proof (compile_lemma l) as C1. pose proof (compile_added l) as C2. congruence. }
    rewrite C. unfold tree_of. rewrite added_eq, imported_all, <- added_numbered. fold (own l). fold (lists l).
    rewrite play_app. unfold compile_all. cbn [d_events].
    assert (B := main_becomes _ _ _ _ U n (start_state begin base d) L eq_refl eq_refl eq_refl eq_refl eq_refl). unfold becomes in B.
    cbn [start_state i_prec i_down i_buffer i_kids i_base i_imports i_includes i_hrefs] in B.
    destruct (play (tagged initial_precedence (own l)) (begin d) []) as [[d' b]| | |].
    - destruct B as (new & c & F & ->). cbn [next i_plugged]. intro Nw.
      assert (Q := unwinds n (State d' b false base initial_precedence (0 + Z.of_nat (length (lists l))) ([] ++ new) [] [] false c) (numbered initial_precedence 0 (lists l)) F).
      cbn [i_down i_buffer] in Q. specialize (Q ltac:(pose proof (load_numbered initial_precedence l 0); lia) eq_refl).
      destruct (play (added_pending (numbered initial_precedence 0 (lists l))) d' b) as [[d2 b2]| | |].
      + destruct Q as (s' & -> & <-). reflexivity.
      + rewrite Q. reflexivity.
      + congruence.
      + destruct Q.
    - rewrite B. intros _. reflexivity.
    - intro H. cbn in H. congruence.
    - destruct B.
  Qed.
End Includes.
