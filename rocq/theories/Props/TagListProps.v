(** C30: the lists of getElementsByTagName and getElementsByTagNameNS are live. *)
From Coq Require Import String.
From Verif.Model Require Import Base Dom DomText TagList.
From Verif.Spec Require Import DomSpec DomTextSpec TagListSpec.
From Verif.Proof Require Import DomProof DomProof2 DomProof3 DomTextProof TagListProof TagListProof2.
From Verif.Props Require Import FilterProps.
From Coq Require Import List.
From Verif.Props Require Import DomProps.
Import ListNotations.
Local Open Scope Z_scope.

(** The lists of one document at any time: made by a call or kept from earlier, with any
    history of calls and of readings in between. *)
Inductive live : heap -> tag_list -> Prop :=
  | live_made : forall h f doc root ns tag l, known h -> n_owner (h root) = Some doc ->
      make_list f h doc root ns tag = Some l -> live h l
  | live_later : forall h h' l, live h l -> evolves h h' -> live h' l
  | live_read : forall h f l l', live h l -> refresh f h l = Some l' -> live h l'.
Lemma live_good : forall h l, live h l -> list_good h l.
Proof.
  intros h l L. induction L as [h f doc root ns tag l K O E|h h' l L IH E|h f l l' L IH E].
  - destruct (known_good h K) as [G OK]. apply (populate_good f h _ l G OK) in E; [|exact O]. tauto.
  - apply list_good_later with h; auto.
  - apply refresh_good in E; auto. tauto.
Qed.
(** getLength, whatever happened before: the length of the list of matching elements, and
    the list then holds them in document order. *)
Theorem C30_length_partial h l f l' n :
  live h l -> list_length f h l = Some (l', n) ->
  live h l' /\ matching h (tl_root l) (tl_ns l) (tl_tag l) (tl_nodes l') /\ n = Z.of_nat (length (tl_nodes l')).
Proof.
  intros L E. unfold list_length in E. destruct (refresh f h l) as [l1|] eqn:R; [|discriminate]. injection E as <- <-.
  split; [apply live_read with f l; auto|]. split; [|reflexivity].
  destruct (refresh_good f h l l1 (live_good h l L) R) as (M & _ & E1 & _ & E2 & E3). rewrite <- E1, <- E2, <- E3. exact M.
Qed.
Print Assumptions C30_length_partial.
(** After that, as long as the document does not change, item gives the elements, and no
    node past the end. *)
Theorem C30_item_partial h l f l' n i :
  live h l -> list_length f h l = Some (l', n) -> list_item f h l' i = Val (l', nth_error (tl_nodes l') i).
Proof.
  intros L E. unfold list_length in E. destruct (refresh f h l) as [l1|] eqn:R; [|discriminate]. injection E as <- _.
  unfold list_item. destruct (Nat.leb_spec (length (tl_nodes l1)) i) as [LE|LT].
  - apply nth_error_None in LE. rewrite LE. reflexivity.
  - assert (F : refresh f h l1 = Some l1).
    { unfold refresh in R |- *. destruct (Z.eqb (tl_changes l) (n_changes (h (tl_doc l)))) eqn:C; [injection R as <-; rewrite C; reflexivity|].
      unfold populate in R. destruct (check_children _ _ _ _ _); [|discriminate]. injection R as <-. cbn. rewrite Z.eqb_refl. reflexivity. }
    rewrite F. destruct (nth_error (tl_nodes l1) i) as [x|] eqn:N; [reflexivity|]. apply nth_error_None in N. lia.
Qed.
Print Assumptions C30_item_partial.
(** There is one such list, and reading ends. *)
Theorem C30_unique h root ns tag l1 l2 : matching h root ns tag l1 -> matching h root ns tag l2 -> l1 = l2.
Proof. exact (fun A B => found_fun h ns tag (kids h root) l1 A l2 B). Qed.
Print Assumptions C30_unique.
Theorem C30_ends h l : known h -> exists f0 l', forall f, (f0 <= f)%nat -> refresh f h l = Some l'.
Proof. exact (refresh_settles h l). Qed.
Print Assumptions C30_ends.

(** For the examples: 1 and 3 are called a, 2 and 4 b. *)
Definition tagged (i : nat) : naming :=
  match i with 1 | 3 => plain (lit "a") | 2 | 4 => Naming (lit "p:b") [] (Some (lit "urn:x")) (lit "b") | _ => plain [] end%nat.
Definition tag_stage : heap := fresh_heap cast (fun i => if Nat.eqb i 12 then 11%nat else O) tagged.
Definition tag_after (ops : list domop) : heap :=
  match dom_run 50 tag_stage ops with Some h => h | None => tag_stage end.
Lemma tag_known : forall ops, match dom_run 50 tag_stage ops with Some _ => true | None => false end = true ->
  Forall (not_into_itself KDocument tag_stage) ops -> known (tag_after ops).
Proof.
  intros ops N F. unfold tag_after. destruct (dom_run 50 tag_stage ops) as [h|] eqn:E; [|discriminate].
  apply (run_known 50 ops _ _ _ h F E).
Qed.
Lemma tag_step : forall ops ops2, match dom_run 50 (tag_after ops) ops2 with Some _ => true | None => false end = true ->
  Forall (not_into_itself KDocument (tag_after ops)) ops2 -> known (tag_after ops) ->
  exists h', dom_run 50 (tag_after ops) ops2 = Some h' /\ evolves (tag_after ops) h'.
Proof.
  intros ops ops2 N F K. destruct (dom_run 50 (tag_after ops) ops2) as [h|] eqn:E; [|discriminate]. exists h. split; [reflexivity|].
  destruct (known_good _ K) as [G O]. apply (run_evolves 50 ops2 _ (tag_after ops) h G O); auto. constructor.
Qed.
Ltac tagknows := apply tag_known; [vm_compute; reflexivity|repeat constructor; intro; discriminate].
(** <a><b/><a/></a> and then a b more in the inner a. *)
Definition book : list domop := [app 0 1; app 1 2; app 1 3]%nat.
Definition list_a (tag : string) (ns : option str) : tag_list :=
  match make_list 50 (tag_after book) 0 0 ns (lit tag) with Some l => l | None => TagList O O None [] [] 0 end.
Lemma list_made : forall tag ns, match make_list 50 (tag_after book) 0 0 ns (lit tag) with Some _ => true | None => false end = true ->
  live (tag_after book) (list_a tag ns).
Proof.
  intros tag ns E. unfold list_a. destruct (make_list 50 (tag_after book) 0 0 ns (lit tag)) as [l|] eqn:M; [|discriminate].
  apply (live_made _ 50%nat 0%nat 0%nat ns (lit tag)); [tagknows|vm_compute; reflexivity|exact M].
Qed.
Example C30_nonvacuous :
  live (tag_after book) (list_a "b" (Some (lit "urn:x"))) /\ tl_nodes (list_a "b" (Some (lit "urn:x"))) = [2%nat] /\
  exists h', evolves (tag_after book) h' /\
    option_map (fun r => (tl_nodes (fst r), snd r)) (list_length 50 h' (list_a "b" (Some (lit "urn:x")))) = Some ([4; 2]%nat, 2).
Proof.
  split; [apply list_made; vm_compute; reflexivity|]. split; [vm_compute; reflexivity|].
  destruct (tag_step book [app 3 4; OpInsert 1 3 (Some 2%nat)]) as (h' & R & E); [vm_compute; reflexivity| |tagknows|].
  - repeat constructor; intro; discriminate.
  - exists h'. split; [exact E|].
    assert (X : option_map (fun h => option_map (fun r => (tl_nodes (fst r), snd r))
      (list_length 50 h (list_a "b" (Some (lit "urn:x"))))) (Some h') = Some (Some ([4; 2]%nat, 2))).
    { rewrite <- R. vm_compute. reflexivity. }
    cbn [option_map] in X. injection X as X. exact X.
Qed.
(** item before getLength: a new element is not found, because the index is compared with
    the old length. *)
Theorem C30_item_misses_refuted : exists h l, live h l /\
  list_item 50 h l 1 = Val (l, None) /\ matching h (tl_root l) (tl_ns l) (tl_tag l) [4; 2]%nat.
Proof.
  destruct (tag_step book [app 3 4; OpInsert 1 3 (Some 2%nat)]) as (h' & R & E); [vm_compute; reflexivity| |tagknows|].
  { repeat constructor; intro; discriminate. }
  exists h', (list_a "b" (Some (lit "urn:x"))).
  assert (L : live (tag_after book) (list_a "b" (Some (lit "urn:x")))) by (apply list_made; vm_compute; reflexivity).
  split; [apply live_later with (tag_after book); auto|]. split; [unfold list_item; vm_compute; reflexivity|].
  assert (X : option_map (fun h => option_map tl_nodes (refresh 50 h (list_a "b" (Some (lit "urn:x"))))) (Some h') = Some (Some [4; 2]%nat)).
  { rewrite <- R. vm_compute. reflexivity. }
  cbn [option_map] in X. destruct (refresh 50 h' (list_a "b" (Some (lit "urn:x")))) as [l'|] eqn:RF; [|discriminate].
  cbn [option_map] in X. injection X as X.
  destruct (refresh_good 50 h' _ l' (list_good_later _ _ _ (live_good _ _ L) E) RF) as (M & _ & E1 & _ & E2 & E3).
  rewrite X, E1, E2, E3 in M. exact M.
Qed.
Print Assumptions C30_item_misses_refuted.
(** item after a removal: the index passes the old bound and the new vector is read out of
    its range. *)
Theorem C30_item_out_of_range_refuted : exists h l, live h l /\ list_item 50 h l 1 = UB.
Proof.
  destruct (tag_step book [OpRemove 1 3]) as (h' & R & E); [vm_compute; reflexivity| |tagknows|].
  { repeat constructor; intro; discriminate. }
  exists h', (list_a "a" None). split.
  - apply live_later with (tag_after book); auto. apply list_made; vm_compute; reflexivity.
  - assert (X : option_map (fun h => match list_item 50 h (list_a "a" None) 1 with UB => true | _ => false end) (Some h') = Some true).
    { rewrite <- R. vm_compute. reflexivity. }
    cbn [option_map] in X. destruct (list_item 50 h' (list_a "a" None) 1); [discriminate|reflexivity|discriminate].
Qed.
Print Assumptions C30_item_out_of_range_refuted.
(** setPrefix changes the name of an element without counting as a change: the list still
    holds it. *)
Theorem C30_rename_refuted : exists h l l', live h l /\ 
  refresh 50 (set_qname h 2 (lit "q:b")) l = Some l' /\ tl_nodes l' = [2%nat] /\
  ~ wanted (set_qname h 2 (lit "q:b")) (tl_ns l) (tl_tag l) 2.
Proof.
  exists (tag_after book), (list_a "p:b" None), (list_a "p:b" None).
  split; [apply list_made; vm_compute; reflexivity|]. split; [vm_compute; reflexivity|]. split; [vm_compute; reflexivity|].
  vm_compute. intuition discriminate.
Qed.
Print Assumptions C30_rename_refuted.
