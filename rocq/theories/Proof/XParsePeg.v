(** The parsers of Spirit, without fuel: what one takes from the front of a text, and where it
    fails. *)
From Verif.Model Require Import Base XAxis XStep XEval XParse.
From Coq Require Import Lia List. Import ListNotations. Open Scope Z_scope.

Definition glue (a : str) (ta : list tree) (b : str) (tb : list tree) : list tree :=
  match a with [] => tb | _ => match b with [] => ta | _ => ta ++ tb end end.
Inductive takes : parser -> str -> str -> list tree -> Prop :=
  | T_chr c r : takes (Chr c) [c] r [Tree None [c] []]
  | T_class (f : Z -> bool) c r : f c = true -> takes (Class f) [c] r [Tree None [c] []]
  | T_txt w r : takes (Txt w) w r [Tree None w []]
  | T_seq p q a b r ta tb : takes p a (b ++ r) ta -> takes q b r tb -> takes (Seq p q) (a ++ b) r (glue a ta b tb)
  | T_left p q a r ta : takes p a r ta -> takes (Alt p q) a r ta
  | T_right p q a r ta : fails p (a ++ r) -> takes q a r ta -> takes (Alt p q) a r ta
  | T_stop p r : fails p r -> takes (Star p) [] r []
  | T_star p a b r ta tb : takes p a (b ++ r) ta -> takes (Star p) b r tb -> takes (Star p) (a ++ b) r (glue a ta b tb)
  | T_some p a r ta : takes p a r ta -> takes (Opt p) a r ta
  | T_none p r : fails p r -> takes (Opt p) [] r []
  | T_many p a b r ta tb : takes p a (b ++ r) ta -> takes (Star p) b r tb -> takes (Many p) (a ++ b) r (glue a ta b tb)
  | T_less p q a r ta : takes p a r ta -> fails q (a ++ r) -> takes (Less p q) a r ta
  | T_longer p q a c r ta tb : takes p (a ++ c) r ta -> takes q a (c ++ r) tb -> c <> [] -> takes (Less p q) (a ++ c) r ta
  | T_rule i a r ta : takes (rule i) a r ta -> takes (Rule i) a r (group i ta)
  | T_token p a r ta : takes p a r ta -> takes (Token p) a r [Tree None a []]
  | T_discard p a r ta : takes p a r ta -> takes (Discard p) a r []
with fails : parser -> str -> Prop :=
  | F_chr c s : (forall r, s <> c :: r) -> fails (Chr c) s
  | F_class (f : Z -> bool) s : (forall c r, s = c :: r -> f c = false) -> fails (Class f) s
  | F_txt w s : strip_prefix w s = None -> fails (Txt w) s
  | F_first p q s : fails p s -> fails (Seq p q) s
  | F_second p q a r ta : takes p a r ta -> fails q r -> fails (Seq p q) (a ++ r)
  | F_alt p q s : fails p s -> fails q s -> fails (Alt p q) s
  | F_many p s : fails p s -> fails (Many p) s
  | F_less p q s : fails p s -> fails (Less p q) s
  | F_same p q a r ta tb : takes p a r ta -> takes q a r tb -> fails (Less p q) (a ++ r)
  | F_rule i s : fails (rule i) s -> fails (Rule i) s
  | F_token p s : fails p s -> fails (Token p) s
  | F_discard p s : fails p s -> fails (Discard p) s.
Scheme takes_ind2 := Induction for takes Sort Prop with fails_ind2 := Induction for fails Sort Prop.
Combined Scheme takes_fails_ind from takes_ind2, fails_ind2.

(** From some amount of fuel on. *)
Definition ev (P : nat -> Prop) : Prop := exists k, forall n, (k <= n)%nat -> P n.
Lemma ev_all (P : nat -> Prop) : (forall n, P n) -> ev P.
Proof. intro H. exists O. intros n _. apply H. Qed.
Lemma ev_S (P : nat -> Prop) : ev (fun n => P (S n)) -> ev P.
Proof. intros [k H]. exists (S k). intros [|n] L; [lia|]. apply H. lia. Qed.
Lemma ev_map (P Q : nat -> Prop) : (forall n, P n -> Q n) -> ev P -> ev Q.
Proof. intros I [k H]. exists k. intros n L. apply I, H, L. Qed.
Lemma ev_and (P Q : nat -> Prop) : ev P -> ev Q -> ev (fun n => P n /\ Q n).
Proof. intros [k H] [m G]. exists (max k m). intros n L. split; [apply H|apply G]; lia. Qed.
Lemma ev_map2 (P Q R : nat -> Prop) : (forall n, P n -> Q n -> R n) -> ev P -> ev Q -> ev R.
Proof. intros I A B. refine (ev_map _ _ _ (ev_and _ _ A B)). intros n [X Y]. exact (I n X Y). Qed.
Lemma ev_here (P : nat -> Prop) : ev P -> exists n, P n.
Proof. intros [k H]. exists k. apply H. lia. Qed.

Lemma consumed_app (a r : str) : consumed (a ++ r) r = length a.
Proof. unfold consumed. rewrite app_length. lia. Qed.
Lemma joined_glue a b r ta tb : joined (a ++ b ++ r) ta (b ++ r) tb r = glue a ta b tb.
Proof. unfold joined. rewrite !consumed_app. destruct a; [reflexivity|]. cbn. destruct b; reflexivity. Qed.
Lemma firstn_consumed (a r : str) : firstn (consumed (a ++ r) r) (a ++ r) = a.
Proof. rewrite consumed_app. rewrite firstn_app, Nat.sub_diag, firstn_all. cbn. apply app_nil_r. Qed.
Lemma strip_self w r : strip_prefix w (w ++ r) = Some r.
Proof. induction w as [|c w IH]; [reflexivity|]. cbn. rewrite Z.eqb_refl. exact IH. Qed.

Lemma takes_fails_parse :
  (forall p a r ts, takes p a r ts -> ev (fun n => parse n p (a ++ r) = Val (Some (ts, r)))) /\
  (forall p s, fails p s -> ev (fun n => parse n p s = Val None)).
Proof.
  apply takes_fails_ind.
  - intros c r. apply ev_S, ev_all. intro n. cbn. rewrite Z.eqb_refl. reflexivity.
  - intros f c r F. apply ev_S, ev_all. intro n. cbn. rewrite F. reflexivity.
  - intros w r. apply ev_S, ev_all. intro n. cbn. rewrite strip_self. reflexivity.
  - intros p q a b r ta tb _ A _ B. apply ev_S. refine (ev_map2 _ _ _ _ A B). intros n E F. cbn [parse]. rewrite <- app_assoc, E. cbn [obind]. rewrite F. cbn [obind].
    rewrite joined_glue. reflexivity.
  - intros p q a r ta _ A. apply ev_S. refine (ev_map _ _ _ A). intros n E. cbn [parse]. rewrite E. reflexivity.
  - intros p q a r ta _ A _ B. apply ev_S. refine (ev_map2 _ _ _ _ A B). intros n E F. cbn [parse]. rewrite E. cbn [obind]. exact F.
  - intros p r _ A. apply ev_S. refine (ev_map _ _ _ A). intros n E. cbn [parse app]. rewrite E. reflexivity.
  - intros p a b r ta tb _ A _ B. apply ev_S. refine (ev_map2 _ _ _ _ A B). intros n E F. cbn [parse]. rewrite <- app_assoc, E. cbn [obind]. rewrite F. cbn [obind].
    rewrite joined_glue. reflexivity.
  - intros p a r ta _ A. apply ev_S. refine (ev_map _ _ _ A). intros n E. cbn [parse]. rewrite E. reflexivity.
  - intros p r _ A. apply ev_S. refine (ev_map _ _ _ A). intros n E. cbn [parse app]. rewrite E. reflexivity.
  - intros p a b r ta tb _ A _ B. apply ev_S, ev_S. refine (ev_map2 _ _ _ _ A B). intros n E F. cbn [parse]. rewrite <- app_assoc, E. cbn [obind]. rewrite F. cbn [obind].
    rewrite joined_glue. reflexivity.
  - intros p q a r ta _ A _ B. apply ev_S. refine (ev_map2 _ _ _ _ A B). intros n E F. cbn [parse]. rewrite E. cbn [obind]. rewrite F. reflexivity.
  - intros p q a c r ta tb _ A _ B N. apply ev_S. refine (ev_map2 _ _ _ _ A B). intros n E F. cbn [parse]. rewrite E. cbn [obind].
    rewrite app_assoc in F. rewrite F. cbn [obind]. rewrite consumed_app. rewrite <- app_assoc, consumed_app.
    replace (_ <? _)%nat with true; [reflexivity|]. symmetry. apply Nat.ltb_lt. rewrite app_length. destruct c; [congruence|]. cbn. lia.
  - intros i a r ta _ A. apply ev_S. refine (ev_map _ _ _ A). intros n E. cbn [parse]. rewrite E. reflexivity.
  - intros p a r ta _ A. apply ev_S. refine (ev_map _ _ _ A). intros n E. cbn [parse]. rewrite E. cbn [obind]. rewrite firstn_consumed. reflexivity.
  - intros p a r ta _ A. apply ev_S. refine (ev_map _ _ _ A). intros n E. cbn [parse]. rewrite E. reflexivity.
  - intros c s N. apply ev_S, ev_all. intro n. cbn. destruct s as [|d s]; [reflexivity|]. destruct (c =? d) eqn:E; [|reflexivity]. apply Z.eqb_eq in E. subst. exfalso. exact (N s eq_refl).
  - intros f s N. apply ev_S, ev_all. intro n. cbn. destruct s as [|d s]; [reflexivity|]. rewrite (N d s eq_refl). reflexivity.
  - intros w s E. apply ev_S, ev_all. intro n. cbn. rewrite E. reflexivity.
  - intros p q s _ A. apply ev_S. refine (ev_map _ _ _ A). intros n E. cbn [parse]. rewrite E. reflexivity.
  - intros p q a r ta _ A _ B. apply ev_S. refine (ev_map2 _ _ _ _ A B). intros n E F. cbn [parse]. rewrite E. cbn [obind]. rewrite F. reflexivity.
  - intros p q s _ A _ B. apply ev_S. refine (ev_map2 _ _ _ _ A B). intros n E F. cbn [parse]. rewrite E. cbn [obind]. exact F.
  - intros p s _ A. apply ev_S, ev_S. refine (ev_map _ _ _ A). intros n E. cbn [parse]. rewrite E. reflexivity.
  - intros p q s _ A. apply ev_S. refine (ev_map _ _ _ A). intros n E. cbn [parse]. rewrite E. reflexivity.
  - intros p q a r ta tb _ A _ B. apply ev_S. refine (ev_map2 _ _ _ _ A B). intros n E F. cbn [parse]. rewrite E. cbn [obind]. rewrite F. cbn [obind].
    rewrite Nat.ltb_irrefl. reflexivity.
  - intros i s _ A. apply ev_S. refine (ev_map _ _ _ A). intros n E. cbn [parse]. rewrite E. reflexivity.
  - intros p s _ A. apply ev_S. refine (ev_map _ _ _ A). intros n E. cbn [parse]. rewrite E. reflexivity.
  - intros p s _ A. apply ev_S. refine (ev_map _ _ _ A). intros n E. cbn [parse]. rewrite E. reflexivity.
Qed.
