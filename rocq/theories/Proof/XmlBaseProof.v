From Verif.Model Require Import Base Uri Attrs NsSupport XmlBase.
From Verif.Spec Require Import XmlBaseSpec.
From Verif.Proof Require Import Tac.

(** The element's xml:base, an empty one counting as none. *)
Definition own_base (atts : list attr) : option (list Z) :=
  match value_of atts xml_uri s_base with [] => None | b => Some b end.
Definition xev_of (e : xbev) : option (option (list Z)) :=
  match e with XStart a => Some (own_base a) | XEnd => None end.
Definition try_resolve (base loc : list Z) : option (list Z) :=
  match xb_absolutise base loc with Val (Some u) => Some u | _ => None end.

(** The stack holds one entry for each open element with a base. *)
Fixpoint entries (loc : list Z) (path : list (option (list Z))) : list (Z * list Z) :=
  match path with
  | [] => [(-1, loc)]
  | None :: r => entries loc r
  | Some b :: r =>
      (Z.of_nat (length path), match base_of try_resolve loc path with Some u => u | None => [] end)
      :: entries loc r
  end.
Lemma entries_top loc path : exists d b rest, entries loc path = (d, b) :: rest
  /\ d <= Z.of_nat (length path)
  /\ match base_of try_resolve loc path with Some u => b = u | None => True end.
Proof.
  induction path as [|[b|] path IH].
  - exists (-1), loc, []. cbn. repeat split; lia.
  - cbn [entries]. eexists _, _, _. split; [reflexivity|]. split; [lia|].
    destruct (base_of try_resolve loc (Some b :: path)); [reflexivity|exact I].
  - destruct IH as (d & c & rest & E & L & B). exists d, c, rest.
    cbn [entries base_of length]. split; [exact E|]. split; [lia|exact B].
Qed.

Lemma xb_run_spec evs : forall loc path x x' path',
  xb_stack x = entries loc path -> xb_depth x = Z.of_nat (length path) ->
  base_of try_resolve loc path <> None ->
  xb_run evs x = Val (Some x') -> open_elements (map xev_of evs) path = Some path' ->
  xb_stack x' = entries loc path' /\ xb_depth x' = Z.of_nat (length path')
  /\ base_of try_resolve loc path' <> None.
Proof.
  induction evs as [|e evs IH]; intros loc path x x' path' HS HD HB R O.
  - injection R as <-. injection O as <-. auto.
  - destruct e as [atts|]; cbn [map xev_of open_elements] in O; cbn [xb_run] in R.
    + unfold xb_start, own_base in *.
      destruct (value_of atts xml_uri s_base) as [|c b] eqn:EV.
      * cbn [obind] in R. refine (IH loc (None :: path) _ x' path' _ _ _ R O); auto.
        cbn [xb_depth length]. lia.
      * destruct (entries_top loc path) as (d & cb & rest & E & L & B).
        unfold current_base in R. rewrite HS, E in R.
        destruct (base_of try_resolve loc path) as [u|] eqn:EB; [|congruence]. subst cb.
        destruct (xb_absolutise u (c :: b)) as [[v|]| |] eqn:EA; cbn [obind] in R; try discriminate.
        assert (BO : base_of try_resolve loc (Some (c :: b) :: path) = Some v).
        { cbn [base_of]. rewrite EB. unfold try_resolve. rewrite EA. reflexivity. }
        refine (IH loc (Some (c :: b) :: path) _ x' path' _ _ _ R O).
        -- cbn [xb_stack entries]. rewrite BO, HD, E. f_equal. f_equal. cbn [length]. lia.
        -- cbn [xb_depth length]. lia.
        -- rewrite BO. discriminate.
    + destruct path as [|ob path]; [discriminate|].
      refine (IH loc path _ x' path' _ _ _ R O).
      * unfold xb_end. cbn [xb_stack]. unfold current_depth. rewrite HS, HD.
        destruct ob as [b|].
        -- cbn [entries]. rewrite Z.eqb_refl. reflexivity.
        -- cbn [entries]. destruct (entries_top loc path) as (d & cb & rest & E & L & _).
           rewrite E. cbn [length]. destruct (Z.eqb_spec d (Z.of_nat (S (length path)))); [lia|].
           reflexivity.
      * unfold xb_end. cbn [xb_depth]. rewrite HD. cbn [length]. lia.
      * destruct ob as [b|]; cbn [base_of] in HB; [|exact HB].
        destruct (base_of try_resolve loc path); [discriminate|congruence].
Qed.

Lemma base_tracked loc evs x path :
  xb_run evs (set_location loc xbase0) = Val (Some x) ->
  open_elements (map xev_of evs) [] = Some path ->
  base_of try_resolve loc path = Some (current_base x).
Proof.
  intros R O.
  destruct (xb_run_spec evs loc [] (set_location loc xbase0) x path) as (HS & HD & HB);
    try assumption; try reflexivity; try discriminate.
  destruct (entries_top loc path) as (d & b & rest & E & L & B).
  unfold current_base. rewrite HS, E. destruct (base_of try_resolve loc path); [congruence|].
  congruence.
Qed.
Lemma base_restored loc evs inner x :
  xb_run evs (set_location loc xbase0) = Val (Some x) ->
  open_elements (map xev_of evs) [] <> None ->
  (forall y path, xb_run (evs ++ inner) (set_location loc xbase0) = Val (Some y) ->
     open_elements (map xev_of evs) [] = Some path ->
     open_elements (map xev_of (evs ++ inner)) [] = Some path ->
     current_base y = current_base x).
Proof.
  intros R _ y path R2 O O2.
  pose proof (base_tracked loc evs x path R O) as B1.
  pose proof (base_tracked loc (evs ++ inner) y path R2 O2) as B2. congruence.
Qed.
