(** C28 character data, C29 splitText and normalize. *)
From Verif.Model Require Import Base Dom DomText.
From Verif.Spec Require Import DomSpec DomTextSpec.
From Verif.Proof Require Import DomProof DomFinite DomProof2 DomProof3 DomTextProof TagListProof TagListProof2.
From Verif.Props Require Import DomProps.

(** For the examples: the nodes of DomProps with data; 5 and all from 13 on are texts, 20
    is a CDATA section. *)
Definition text_cast (i : nat) : nkind := if Nat.eqb i 20 then KCData else cast i.
Definition text_of (i : nat) : str :=
  if Nat.eqb i 5 then [97; 98; 99] else if Nat.eqb i 13 then [100; 101] else if Nat.eqb i 14 then [] else [102].
Definition text_stage : heap := fresh_heap text_cast (fun _ => O) (fun i => Naming [] (text_of i) None []).
Definition text_after (ops : list domop) : heap :=
  match dom_run 50 text_stage ops with Some h => h | None => text_stage end.
(** 1 has the children 5 (abc), 14 (empty), 13 (de), 2 with 15 and 16, 17. *)
Definition page : list domop := [app 0 1; app 1 5; app 1 14; app 1 13; app 1 2; app 1 17; app 2 15; app 2 16]%nat.

(** * C28 *)

Theorem C28_substring h i offset count : int_sized (n_data (h i)) ->
  (inside (n_data (h i)) offset -> 0 <= count ->
   exists s, substring_data h i offset count = Ok h s /\ is_substring (n_data (h i)) offset count s) /\
  (~ inside (n_data (h i)) offset \/ count < 0 -> substring_data h i offset count = Ex INDEX_SIZE h).
Proof. exact (substring_ok h i offset count). Qed.
Print Assumptions C28_substring.
(** A node that is not read-only: the data becomes what DOM says, and nothing else
    changes; outside, INDEX_SIZE_ERR and no change at all.  Read-only:
    NO_MODIFICATION_ALLOWED_ERR and no change at all. *)
Theorem C28_replace h i offset count arg : int_sized (n_data (h i)) ->
  (n_ro (h i) = true -> replace_data h i offset count arg = Ex NO_MODIFICATION h) /\
  (n_ro (h i) = false -> inside (n_data (h i)) offset -> 0 <= count ->
   exists s, replace_data h i offset count arg = Ok (upd h i (set_data_f s)) tt /\ is_replaced (n_data (h i)) offset count arg s) /\
  (n_ro (h i) = false -> ~ inside (n_data (h i)) offset \/ count < 0 -> replace_data h i offset count arg = Ex INDEX_SIZE h).
Proof. exact (replace_data_ok h i offset count arg). Qed.
Print Assumptions C28_replace.
Theorem C28_delete h i offset count : int_sized (n_data (h i)) ->
  (n_ro (h i) = true -> delete_data h i offset count = Ex NO_MODIFICATION h) /\
  (n_ro (h i) = false -> inside (n_data (h i)) offset -> 0 <= count ->
   exists s, delete_data h i offset count = Ok (upd h i (set_data_f s)) tt /\ is_replaced (n_data (h i)) offset count [] s) /\
  (n_ro (h i) = false -> ~ inside (n_data (h i)) offset \/ count < 0 -> delete_data h i offset count = Ex INDEX_SIZE h).
Proof. exact (replace_data_ok h i offset count []). Qed.
Print Assumptions C28_delete.
Theorem C28_insert h i offset arg : int_sized (n_data (h i)) ->
  (n_ro (h i) = true -> insert_data h i offset arg = Ex NO_MODIFICATION h) /\
  (n_ro (h i) = false -> inside (n_data (h i)) offset ->
   exists s, insert_data h i offset arg = Ok (upd h i (set_data_f s)) tt /\ is_replaced (n_data (h i)) offset 0 arg s) /\
  (n_ro (h i) = false -> ~ inside (n_data (h i)) offset -> insert_data h i offset arg = Ex INDEX_SIZE h).
Proof. exact (insert_data_all h i offset arg). Qed.
Print Assumptions C28_insert.
Theorem C28_append h i arg :
  (n_ro (h i) = true -> append_data h i arg = Ex NO_MODIFICATION h) /\
  (n_ro (h i) = false -> append_data h i arg = Ok (upd h i (set_data_f (n_data (h i) ++ arg))) tt).
Proof. exact (append_data_all h i arg). Qed.
Print Assumptions C28_append.
(** The specification leaves no choice. *)
Theorem C28_replaced_unique d offset count arg x y :
  is_replaced d offset count arg x -> is_replaced d offset count arg y -> x = y.
Proof. exact (is_replaced_fun d offset count arg x y). Qed.
Print Assumptions C28_replaced_unique.
Definition data_after {A} (r : res A) (i : nat) : option str := match r with Ok h _ => Some (n_data (h i)) | _ => None end.
Example C28_nonvacuous :
  let h := text_after page in
  int_sized (n_data (h 5%nat)) /\ inside (n_data (h 5%nat)) 1 /\ n_ro (h 5%nat) = false /\
  data_after (replace_data h 5 1 1 [120; 121]) 5 = Some [97; 120; 121; 99] /\
  data_after (delete_data h 5 1 9) 5 = Some [97] /\
  data_after (insert_data h 5 3 [120]) 5 = Some [97; 98; 99; 120] /\
  thrown (insert_data h 5 4 [120]) = Some INDEX_SIZE /\ thrown (delete_data h 5 0 (-1)) = Some INDEX_SIZE.
Proof. vm_compute. repeat split; intro; discriminate. Qed.

(** * C29 *)

(** splitText of a text or CDATA node in a tree: the new node follows it, the two data are
    the old one cut at the offset, no other child list or data changes, and the text
    content of every element and other node with children stays the same. *)
Theorem C29_split h f this new offset p a b h' r :
  known h -> unused h new -> n_kind (h this) = KText \/ n_kind (h this) = KCData ->
  n_parent (h this) = Some p -> kids h p = a ++ this :: b -> int_sized (n_data (h this)) ->
  split_text f h this new offset = Some (Ok h' r) ->
  r = new /\ inside (n_data (h this)) offset /\
  kids h' p = a ++ this :: new :: b /\ (forall i, i <> p -> kids h' i = kids h i) /\
  n_data (h this) = n_data (h' this) ++ n_data (h' new) /\ Z.of_nat (length (n_data (h' this))) = offset /\
  n_kind (h' new) = n_kind (h this) /\ (forall i, i <> new -> n_kind (h' i) = n_kind (h i)) /\
  (forall i, i <> new -> i <> this -> n_data (h' i) = n_data (h i)) /\
  (forall q s, q <> new -> ~ (n_kind (h q) = KText \/ n_kind (h q) = KCData) -> content h q s -> content h' q s).
Proof.
  exact (fun K U T P S Z E => proj2 (split_spec f h this new offset p a b h' r (proj1 (known_good h K)) U T P S Z E)).
Qed.
Print Assumptions C29_split.
(** It does succeed for an offset inside the data. *)
Theorem C29_split_succeeds h this new offset p :
  known h -> kinds_ok h -> unused h new -> n_parent (h this) = Some p ->
  n_kind (h this) = KText \/ n_kind (h this) = KCData -> n_ro (h this) = false -> n_ro (h p) = false ->
  int_sized (n_data (h this)) -> inside (n_data (h this)) offset -> this <> new -> p <> new ->
  exists f0, forall f, (f0 <= f)%nat -> exists h', split_text f h this new offset = Some (Ok h' new).
Proof.
  exact (fun K KO U P T R RP Z I N1 N2 =>
    proj1 (split_total h this new offset p (proj1 (known_good h K)) (proj2 (known_good h K)) KO U P T R RP Z I N1 N2)).
Qed.
Print Assumptions C29_split_succeeds.
(** When it raises, nothing has changed, and the node is read-only or the offset is not
    inside the data. *)
Theorem C29_split_atomic h f this new offset p e h' :
  known h -> kinds_ok h -> unused h new -> n_parent (h this) = Some p ->
  n_kind (h this) = KText \/ n_kind (h this) = KCData ->
  int_sized (n_data (h this)) -> this <> new -> p <> new ->
  split_text f h this new offset = Some (Ex e h') ->
  h' = h /\ (n_ro (h this) = true \/ ~ inside (n_data (h this)) offset).
Proof. exact (split_atomic f h this new offset p e h'). Qed.
Print Assumptions C29_split_atomic.
(** normalize, when it returns: nothing below has an empty or two adjacent texts, and the
    text content of every node that is not a text or CDATA is the same; nothing outside
    has changed. *)
Theorem C29_normalize h f this h' u :
  known h -> normalize f h this = Ok h' u ->
  normal_below h' this /\
  (forall q s, ~ (n_kind (h q) = KText \/ n_kind (h q) = KCData) -> content h q s -> content h' q s) /\
  (forall i, ~ at_or_below h this i -> kids h' i = kids h i) /\ (forall i, ~ above h this i -> n_data (h' i) = n_data (h i)).
Proof. exact (fun K => normalize_effect f h this h' u (proj1 (known_good h K))). Qed.
Print Assumptions C29_normalize.
(** A second normalize changes nothing at all. *)
Theorem C29_normalize_twice h f f2 this h' u :
  known h -> normalize f h this = Ok h' u ->
  normalize f2 h' this = Ok h' tt \/ normalize f2 h' this = Div.
Proof. exact (fun K => normalize_again f f2 h this h' u (proj1 (known_good h K))). Qed.
Print Assumptions C29_normalize_twice.
(** It always ends, and without an exception if nothing below is read-only. *)
Theorem C29_normalize_ends h this :
  known h -> exists f0 r, r <> Div /\ forall f, (f0 <= f)%nat -> normalize f h this = r.
Proof.
  exact (fun K => normalize_settles h this (few_finite h (proj1 (known_good h K)) (known_few h K) this) h
    (proj1 (known_good h K)) (fun i c I => I)).
Qed.
Print Assumptions C29_normalize_ends.
Theorem C29_normalize_raises h f this e h' :
  known h -> kinds_ok h -> normalize f h this = Ex e h' ->
  (forall q s, ~ (n_kind (h q) = KText \/ n_kind (h q) = KCData) -> content h q s -> content h' q s) /\
  exists n, at_or_below h this n /\ n_ro (h n) = true.
Proof. exact (fun K KO => normalize_throws f h this e h' (proj1 (known_good h K)) KO (known_frozen h K)). Qed.
Print Assumptions C29_normalize_raises.

Lemma text_known : forall ops, match dom_run 50 text_stage ops with Some _ => true | None => false end = true ->
  Forall (not_into_itself KDocument text_stage) ops -> known (text_after ops).
Proof.
  intros ops N F. unfold text_after. destruct (dom_run 50 text_stage ops) as [h|] eqn:E; [|discriminate].
  apply (run_known 50 ops text_cast (fun _ => O) (fun i => Naming [] (text_of i) None [])); assumption.
Qed.
Ltac knows := apply text_known; [vm_compute; reflexivity|repeat constructor; intro; discriminate].
Example C29_nonvacuous :
  let h := text_after page in
  (known h /\ unused h 19 /\ kids h 1 = [5; 14] ++ 13 :: [2; 17] /\ n_parent (h 13) = Some 1 /\
  match split_text 50 h 13 19 1 with
  | Some (Ok h' _) => Some (kids h' 1, n_data (h' 13), n_data (h' 19)) | _ => None end
  = Some ([5; 14; 13; 19; 2; 17], [100%Z], [101%Z]) /\
  match normalize 50 h 1 with
  | Ok h' _ => Some (kids h' 1, n_data (h' 5), kids h' 2, n_data (h' 15)) | _ => None end
  = Some ([5; 2; 17], [97; 98; 99; 100; 101]%Z, [15], [102; 102]%Z))%nat.
Proof.
  intro h. split; [unfold h; knows|]. split; [constructor; vm_compute; reflexivity|]. split; [vm_compute; reflexivity|].
  split; [vm_compute; reflexivity|]. split; vm_compute; reflexivity.
Qed.
(** A CDATA section without a parent: a null pointer is dereferenced. *)
Theorem C29_split_cdata_refuted : exists h, known h /\ n_kind (h 20%nat) = KCData /\
  forall f, split_text f h 20 19 0 = None.
Proof.
  exists (text_after []). split; [knows|]. split; [vm_compute; reflexivity|]. intro f. vm_compute. reflexivity.
Qed.
Print Assumptions C29_split_cdata_refuted.
(** Splitting a text without a parent: the new node is in no child list and not in the
    document's set of orphans, so nothing deletes it (C52). *)
Theorem C52_split_text_leaks_refuted : exists h, known h /\ n_kind (h 5%nat) = KText /\
  match split_text 50 h 5 19 1 with
  | Some (Ok h' _) => (n_data (h' 19%nat), n_orphan (h' 19%nat), get_parent h' 19) = ([98; 99], false, None)
  | _ => False
  end.
Proof.
  exists (text_after []). split; [knows|]. split; vm_compute; reflexivity.
Qed.
Print Assumptions C52_split_text_leaks_refuted.
Lemma known_owner : forall h c, good h -> n_kind (h c) <> KDocument -> n_kind (h c) <> KDocType ->
  n_orphan (h c) = true /\ (forall p, ~ In c (kids h p)) \/
  n_orphan (h c) = false /\ exists p a b, kids h p = a ++ c :: b /\ ~ In c (a ++ b) /\ forall q, In c (kids h q) -> q = p.
Proof.
  intros h c G K1 K2. destruct (n_orphan (h c)) eqn:O.
  - left. split; [reflexivity|]. apply (orphans_are_roots h c G K1 K2). exact O.
  - right. split; [reflexivity|]. destruct G as [L T]. destruct (n_parent (h c)) as [p|] eqn:P; [|rewrite (t_orphan h T c P K1 K2) in O; discriminate]. exists p.
    assert (I : In c (n_kids (h p))) by (apply (l_parent h L); exact P). destruct (in_split _ _ I) as (a & b & E). exists a, b. split; [exact E|]. split.
    + apply NoDup_remove_2. rewrite <- E. apply (l_nodup h L).
    + intros q Q. apply (l_parent h L) in Q. congruence.
Qed.
(** Otherwise splitText and normalize keep the owners: after any history of child list and data
    changes, of splitText on nodes with a parent, and of normalize, a node is in its document's set of
    orphans and in no child list, or it is not in the set and in one child list, once. *)
Theorem C52_texts_partial h c :
  known h -> n_kind (h c) <> KDocument -> n_kind (h c) <> KDocType ->
  n_orphan (h c) = true /\ (forall p, ~ In c (kids h p)) \/
  n_orphan (h c) = false /\ exists p a b, kids h p = a ++ c :: b /\ ~ In c (a ++ b) /\ forall q, In c (kids h q) -> q = p.
Proof. exact (fun K => known_owner h c (proj1 (known_good h K))). Qed.
Print Assumptions C52_texts_partial.
Example C52_texts_case :
  let h := text_after page in
  (known h /\ match split_text 50 h 13 19 1 with Some (Ok h' _) => (n_orphan (h 13), n_orphan (h' 13), n_orphan (h' 19)) = (false, false, false) | _ => False end /\
  match normalize 50 h 1 with Ok h' _ => (n_orphan (h' 14), n_orphan (h' 5)) = (true, false) | _ => False end)%nat.
Proof. intro h. split; [unfold h; knows|]. split; vm_compute; reflexivity. Qed.
(** The tree stays sound over the same histories (C24). *)
Theorem C24_texts_partial h : known h -> tree_ok h.
Proof. exact (fun K => good_tree h (proj1 (known_good h K))). Qed.
Print Assumptions C24_texts_partial.
