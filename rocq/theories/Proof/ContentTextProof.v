(** Proofs about the texts of declarations. *)
From Coq Require Import Arith.
From Verif.Model Require Import Base XSort ContentText.
From Verif.Spec Require Import ContentTextSpec.

(** What expat and libxml2 hand over for a content model. *)
Definition quant_of (o : often) : quant :=
  match o with One => Once | Maybe => Opt | Any_number => Rep | Some_ => Plus end.
Fixpoint given (p : particle) : content :=
  match p with
  | PName n o => Content CtName (quant_of o) n []
  | PChoice l o => Content CtChoice (quant_of o) [] (map given l)
  | PSeq l o => Content CtSeq (quant_of o) [] (map given l)
  end.
Definition given_spec (c : contentspec) : content :=
  match c with
  | Empty => Content CtEmpty Once [] []
  | Any => Content CtAny Once [] []
  | Mixed [] => Content CtMixed Once [] []
  | Mixed l => Content CtMixed Rep [] (map (fun n => Content CtName Once n []) l)
  | Children p => given p
  end.

Lemma particle_ind2 (P : particle -> Prop) :
  (forall n o, P (PName n o)) -> (forall l o, Forall P l -> P (PChoice l o)) ->
  (forall l o, Forall P l -> P (PSeq l o)) -> forall p, P p.
Proof.
  intros A B C. fix go 1. intros [n o|l o|l o]; [apply A|apply B|apply C];
    (induction l as [|k r IH]; constructor; [apply go|exact IH]).
Qed.

(** Where a particle may stop: at the end or at one of ) , |. *)
Definition stops (s : list Z) : Prop :=
  s = [] \/ exists c r, s = c :: r /\ (c = 41 \/ c = 44 \/ c = 124).

Lemma read_name_app n r : Forall (fun c => is_mark c = false) n ->
  (r = [] \/ exists c k, r = c :: k /\ is_mark c = true) -> read_name (n ++ r) = (n, r).
Proof.
  intros H R. induction n as [|c n IH]; cbn [app read_name].
  - destruct R as [->|(c & k & -> & M)]; cbn; [reflexivity|]. now rewrite M.
  - inversion_clear H as [|? ? H1 H2]. rewrite H1, IH by auto. reflexivity.
Qed.
Lemma read_often_app o r : stops r -> read_often (quant_text (quant_of o) ++ r) = (o, r).
Proof.
  intros [->|(c & k & -> & [-> |[-> | ->]])]; destruct o; reflexivity.
Qed.
Lemma quant_mark o r : stops r ->
  quant_text (quant_of o) ++ r = [] \/ exists c k, quant_text (quant_of o) ++ r = c :: k /\ is_mark c = true.
Proof.
  intros [->|(c & k & -> & [-> |[-> | ->]])]; destruct o; cbn; auto; right; eexists _, _; split; reflexivity.
Qed.

Fixpoint size (p : particle) : nat :=
  match p with
  | PName _ _ => 1
  | PChoice l _ | PSeq l _ => S (list_sum (map (fun k => S (size k)) l))
  end.
Definition text (p : particle) : list Z := convert_content true (given p).
Definition mores (sep : Z) (l : list particle) : list Z := flat_map (fun k => sep :: text k) l.

Lemma mores_given sep l : flat_map (fun k => sep :: convert_content true k) (map given l) = mores sep l.
Proof. induction l as [|k l IH]; cbn [flat_map map mores]; auto. now rewrite IH. Qed.
Lemma group_text l o (choice : bool) p :
  text ((if choice then PChoice else PSeq) (p :: l) o)
  = [40] ++ text p ++ mores (if choice then 124 else 44) l ++ [41] ++ quant_text (quant_of o).
Proof.
  unfold text at 1. destruct choice; cbn [given map convert_content app]; rewrite mores_given;
    rewrite <- !app_assoc; reflexivity.
Qed.

Lemma stops_more sep l r : sep = 44 \/ sep = 124 -> stops (mores sep l ++ 41 :: r).
Proof.
  intros [-> | ->]; (destruct l as [|k l]; right; cbn [mores flat_map app]; eexists _, _; (split; [reflexivity|auto])).
Qed.

Lemma each_forall (P : particle -> Prop) l :
  (fix each l := match l with [] => True | k :: r => P k /\ each r end) l -> Forall P l.
Proof. induction l as [|k r IH]; intros H; constructor; destruct H; auto. Qed.

Definition reads (p : particle) : Prop := forall fuel r, (size p <= fuel)%nat -> stops r ->
  read_cp fuel (text p ++ r) = Some (p, r).

Lemma read_more_ok sep l : sep = 44 \/ sep = 124 -> Forall reads l ->
  forall fuel r, (S (list_sum (map (fun k => S (size k)) l)) <= fuel)%nat ->
  read_more fuel sep (mores sep l ++ 41 :: r) = Some (l, r).
Proof.
  intros S R. induction l as [|k l IH]; intros fuel r F; (destruct fuel as [|f]; [cbn in F; lia|]).
  - reflexivity.
  - inversion_clear R as [|? ? R1 R2]. cbn [map] in F.
    change (list_sum (Datatypes.S (size k) :: map (fun k => Datatypes.S (size k)) l))
      with (Datatypes.S (size k) + list_sum (map (fun k => Datatypes.S (size k)) l))%nat in F.
    cbn [mores flat_map app]. fold (mores sep l). rewrite <- app_assoc.
    assert (E : read_more (Datatypes.S f) sep (sep :: text k ++ mores sep l ++ 41 :: r)
      = match read_cp f (text k ++ mores sep l ++ 41 :: r) with
        | Some (p, r1) => match read_more f sep r1 with Some (l, r2) => Some (p :: l, r2) | None => None end
        | None => None
        end) by (destruct S as [-> | ->]; reflexivity).
    rewrite E, R1 by (try lia; now apply stops_more). rewrite IH by (auto; lia). reflexivity.
Qed.

Lemma group_reads (choice : bool) p l o : reads p -> Forall reads l -> (choice = true -> l <> []) ->
  forall fuel r, (size ((if choice then PChoice else PSeq) (p :: l) o) <= fuel)%nat -> stops r ->
  read_cp fuel (text ((if choice then PChoice else PSeq) (p :: l) o) ++ r)
  = Some ((if choice then PChoice else PSeq) (p :: l) o, r).
Proof.
  intros RP RL NE fuel r F S.
  assert (F' : (2 + (size p + list_sum (map (fun k => Datatypes.S (size k)) l)) <= fuel)%nat)
    by (assert (Q : size ((if choice then PChoice else PSeq) (p :: l) o)
          = Datatypes.S (Datatypes.S (size p) + list_sum (map (fun k => Datatypes.S (size k)) l))%nat)
          by (destruct choice; reflexivity); lia).
  destruct fuel as [|f]; [lia|].
  rewrite group_text. cbn [app]. rewrite <- !app_assoc. cbn [app].
  set (sep := if choice then 124 else 44).
  assert (HS : sep = 44 \/ sep = 124) by (subst sep; destruct choice; auto).
  set (tail := mores sep l ++ 41 :: quant_text (quant_of o) ++ r).
  assert (E : read_cp (Datatypes.S f) (40 :: text p ++ tail)
    = match read_cp f (text p ++ tail) with
      | Some (p, r1) =>
          let sep := match r1 with 124 :: _ => 124 | _ => 44 end in
          match read_more f sep r1 with
          | Some (l, r2) =>
              let (o, r3) := read_often r2 in
              Some (if sep =? 124 then PChoice (p :: l) o else PSeq (p :: l) o, r3)
          | None => None
          end
      | None => None
      end) by reflexivity.
  rewrite E, RP by (try lia; now apply stops_more). cbv zeta.
  assert (ES : match tail with 124 :: _ => 124 | _ => 44 end = sep).
  { subst tail sep. destruct choice.
    - destruct l as [|k l]; [now destruct (NE eq_refl)|reflexivity].
    - destruct l; reflexivity. }
  rewrite ES. subst tail. rewrite read_more_ok by (auto; lia). rewrite read_often_app by exact S.
  subst sep. destruct choice; reflexivity.
Qed.

Lemma read_cp_ok p : proper p -> reads p.
Proof.
  induction p as [n o|l o IH|l o IH] using particle_ind2; cbn [proper].
  - intros [NE M] fuel r F S. destruct fuel as [|f]; [cbn in F; lia|].
    assert (T : text (PName n o) = n ++ quant_text (quant_of o)) by reflexivity.
    rewrite T, <- app_assoc.
    assert (R : read_name (n ++ quant_text (quant_of o) ++ r) = (n, quant_text (quant_of o) ++ r))
      by (apply read_name_app; auto using quant_mark).
    destruct n as [|c n]; [contradiction|]. inversion_clear M as [|? ? M1 M2].
    assert (E : forall s, read_cp (Datatypes.S f) (c :: s)
              = match read_name (c :: s) with
                | ([], _) => None
                | (n, r1) => let (o, r2) := read_often r1 in Some (PName n o, r2)
                end).
    { intros s. cbn [read_cp]. destruct c as [|q|q]; try reflexivity.
      destruct (Z.eq_dec (Zpos q) 40) as [Q|Q]; [rewrite Q in M1; discriminate|].
      repeat (destruct q as [q|q|]; try reflexivity). congruence. }
    cbn [app]. cbn [app] in R. rewrite E, R, read_often_app by exact S. reflexivity.
  - intros [L P]. apply each_forall in P. destruct l as [|p l]; [cbn in L; lia|].
    inversion_clear P as [|? ? P1 P2]. inversion_clear IH as [|? ? I1 I2].
    intros fuel r. apply (group_reads true p l o); auto.
    + clear -I2 P2. induction l; constructor; inversion_clear I2; inversion_clear P2; auto.
    + intros _ ->. cbn in L. lia.
  - intros [L P]. apply each_forall in P. destruct l as [|p l]; [contradiction|].
    inversion_clear P as [|? ? P1 P2]. inversion_clear IH as [|? ? I1 I2].
    intros fuel r. apply (group_reads false p l o); auto.
    + clear -I2 P2. induction l; constructor; inversion_clear I2; inversion_clear P2; auto.
    + discriminate.
Qed.

(** * Whole models *)
Lemma size_text p : proper p -> (size p <= length (text p))%nat.
Proof.
  assert (G : forall (choice : bool) l o, l <> [] -> Forall (fun k => (size k <= length (text k))%nat) l ->
    (size ((if choice then PChoice else PSeq) l o) <= length (text ((if choice then PChoice else PSeq) l o)))%nat).
  { intros choice l o NE F. clear p. destruct l as [|p l]; [contradiction|]. rewrite group_text.
    inversion_clear F as [|? ? F1 F2].
    assert (M : (list_sum (map (fun k => S (size k)) l) <= length (mores (if choice then 124 else 44) l))%nat).
    { clear -F2. induction l as [|k l IH]; [apply Nat.le_0_l|]. inversion_clear F2 as [|? ? A B].
      cbn [map mores flat_map]. unfold list_sum in *. cbn [fold_right app length]. rewrite app_length.
      specialize (IH B). unfold mores in IH. lia. }
    assert (Q : size ((if choice then PChoice else PSeq) (p :: l) o)
                = S (S (size p) + list_sum (map (fun k => S (size k)) l))%nat) by (destruct choice; reflexivity).
    rewrite Q, !app_length. cbn [length]. lia. }
  induction p as [n o|l o IH|l o IH] using particle_ind2; cbn [proper].
  - intros [NE _]. cbn [size]. unfold text. cbn [given convert_content app].
    destruct n; [contradiction|]. cbn [app length]. lia.
  - intros [L P]. apply each_forall in P. apply (G true l o).
    + intros ->. cbn in L. lia.
    + clear -IH P. induction l; constructor; inversion_clear IH; inversion_clear P; auto.
  - intros [L P]. apply each_forall in P. apply (G false l o); auto.
    clear -IH P. induction l; constructor; inversion_clear IH; inversion_clear P; auto.
Qed.

Lemma text_head p : proper p -> exists c r, text p = c :: r /\ c <> 35.
Proof.
  destruct p as [[|c n] o|[|p l] o|[|p l] o]; cbn [proper].
  - intros [H _]; contradiction.
  - intros [_ H]. inversion_clear H as [|? ? H1 H2]. unfold text. cbn [given convert_content app].
    eexists _, _. split; [reflexivity|]. intros ->. discriminate H1.
  - cbn. lia.
  - intros _. rewrite (group_text l o true p). cbn [app]. eexists _, _. split; [reflexivity|discriminate].
  - now intros [H _].
  - intros _. rewrite (group_text l o false p). cbn [app]. eexists _, _. split; [reflexivity|discriminate].
Qed.

Lemma read_children p : proper p -> (forall n o, p <> PName n o) ->
  read_contentspec (text p) = Some (Children p).
Proof.
  intros P NN. unfold read_contentspec.
  assert (H : exists k r, proper k /\ text p = 40 :: text k ++ r).
  { destruct p as [n o|[|k l] o|[|k l] o]; cbn [proper] in P.
    - now destruct (NN n o).
    - cbn in P. lia.
    - exists k. rewrite (group_text l o true k). cbn [app]. eexists. split; [apply P|reflexivity].
    - now destruct P.
    - exists k. rewrite (group_text l o false k). cbn [app]. eexists. split; [apply P|reflexivity]. }
  destruct H as (k & r & PK & E).
  destruct (list_eq_dec Z.eq_dec (text p) _) as [Q|_]; [rewrite E in Q; discriminate|].
  destruct (list_eq_dec Z.eq_dec (text p) _) as [Q|_]; [rewrite E in Q; discriminate|].
  assert (S : starts [40; 35; 80; 67; 68; 65; 84; 65] (text p) = None).
  { unfold starts. destruct (list_eq_dec _ _ _) as [Q|_]; [|reflexivity].
    rewrite E in Q. destruct (text_head k PK) as (c & t & T & N). rewrite T in Q.
    cbn [firstn length app] in Q. injection Q as Q _. contradiction. }
  rewrite S. pose proof (read_cp_ok p P (Datatypes.S (length (text p))) []) as R.
  rewrite app_nil_r in R. rewrite R; [|pose proof (size_text p P); lia|now left].
  destruct p; auto. now destruct (NN n o).
Qed.

Lemma convert_group p : (forall n o, p <> PName n o) -> convert_content false (given p) = text p.
Proof. intros N. destruct p; [now destruct (N n o)|reflexivity|reflexivity]. Qed.

Lemma expat_reads c : proper_spec c -> (forall n l, c <> Mixed (n :: l)) ->
  read_contentspec (convert_content false (given_spec c)) = Some c.
Proof.
  intros P N. destruct c as [| |l|p].
  - reflexivity.
  - reflexivity.
  - destruct l as [|n l]; [reflexivity|now destruct (N n l)].
  - cbn [given_spec]. destruct p as [n o|l o|l o]; [destruct P| |];
      rewrite convert_group by discriminate; apply read_children; auto; discriminate.
Qed.

(** ** libxml2: a group of names is a chain of pairs *)
Definition leaf (n : list Z) (o : often) : lx_content := LxContent LxElement (quant_of o) n None None.
Fixpoint chain (t : lx_type) (a : list Z * often) (l : list (list Z * often)) : lx_content :=
  match l with
  | [] => leaf (fst a) (snd a)
  | b :: r => LxContent t Once [] (Some (leaf (fst a) (snd a))) (Some (chain t b r))
  end.
Definition occurs (q : often) (c : lx_content) : lx_content :=
  let '(LxContent t _ n a b) := c in LxContent t (quant_of q) n a b.
Definition name_of (x : list Z * often) : particle := PName (fst x) (snd x).

Lemma leaf_text n o : lx_convert LxElementDecl true (leaf n o) = text (PName n o).
Proof. reflexivity. Qed.
Lemma chain_text (choice : bool) l : forall a,
  lx_convert LxElementDecl true (chain (if choice then LxOr else LxSeq) a l)
  = text (name_of a) ++ mores (if choice then 124 else 44) (map name_of l).
Proof.
  induction l as [|b l IH]; intros a.
  - cbn [chain map mores flat_map]. rewrite app_nil_r. apply leaf_text.
  - cbn [chain map mores flat_map]. fold (mores (if choice then 124 else 44) (map name_of l)).
    cbn [lx_convert]. change (lx_convert LxElementDecl true (leaf (fst a) (snd a))) with (text (name_of a)).
    rewrite IH. destruct choice; cbn [app quant_text]; rewrite !app_nil_r; reflexivity.
Qed.
Lemma flat_group (choice : bool) a b l o :
  lx_convert LxElementDecl false (occurs o (chain (if choice then LxOr else LxSeq) a (b :: l)))
  = text ((if choice then PChoice else PSeq) (name_of a :: name_of b :: map name_of l) o).
Proof.
  rewrite group_text. cbn [chain occurs lx_convert].
  change (lx_convert LxElementDecl true (leaf (fst a) (snd a))) with (text (name_of a)).
  rewrite chain_text. cbn [mores flat_map]. fold (mores (if choice then 124 else 44) (map name_of l)).
  destruct choice; cbn [app]; rewrite <- !app_assoc; cbn [app]; rewrite <- !app_assoc; reflexivity.
Qed.
Lemma libxml2_reads (choice : bool) a b l o :
  Forall (fun x => proper_name (fst x)) (a :: b :: l) ->
  exists t, lx_element_decl LxElementDecl (Some (occurs o (chain (if choice then LxOr else LxSeq) a (b :: l)))) = Val t
    /\ read_contentspec t
       = Some (Children ((if choice then PChoice else PSeq) (map name_of (a :: b :: l)) o)).
Proof.
  intros F. eexists. split; [reflexivity|]. rewrite flat_group. apply read_children.
  - assert (E : (fix each l := match l with [] => True | k :: r => proper k /\ each r end)
                  (map name_of (a :: b :: l))).
    { induction F as [|x k H F IH]; cbn [map]; [exact Logic.I|]. split; [exact H|exact IH]. }
    destruct choice; (split; [|exact E]); [cbn; lia|discriminate].
  - destruct choice; discriminate.
Qed.
