(** C29, continued: normalize reaches the values of attributes. *)
From Verif.Model Require Import Base Dom DomText NormalizeAll.
From Verif.Spec Require Import DomSpec DomTextSpec NormalizeAllSpec.
From Verif.Proof Require Import DomProof DomProof2 DomProof3 DomFinite DomTextProof TagListProof TagListProof2 NormalizeAllProof.
From Coq Require Import List Lia.
From Verif.Props Require Import DomProps DomTextProps.
Import ListNotations.
Local Open Scope Z_scope.

(** normalize of a node, where [attrs] gives the attributes of each node: when it returns, nothing
    below the node, or below an attribute of a node there, has an empty or two adjacent texts; the text
    of every element and attribute is as before, and nothing else has changed. *)
Theorem C29_attributes attrs h f this h' u :
  known h -> attributed attrs h -> normalize_all attrs f h this = Ok h' u ->
  normal_below h' this /\ (forall j a, at_or_below h' this j -> In a (attrs j) -> normal_below h' a) /\
  (forall q s, ~ (n_kind (h q) = KText \/ n_kind (h q) = KCData) -> content h q s -> content h' q s) /\
  (forall i, ~ within attrs h this i -> kids h' i = kids h i) /\
  (forall i, ~ strictly_within attrs h this i -> n_data (h' i) = n_data (h i)).
Proof. exact (fun K => all_lemma attrs f h this h' u (proj1 (known_good h K))). Qed.
Print Assumptions C29_attributes.
(** It always ends. *)
Theorem C29_attributes_end attrs h this :
  known h -> attributed attrs h -> exists f0 r, r <> Div /\ forall f, (f0 <= f)%nat -> normalize_all attrs f h this = r.
Proof. exact (fun K AT => all_settles attrs h this (proj1 (known_good h K)) AT (few_finite h (proj1 (known_good h K)) (known_few h K))). Qed.
Print Assumptions C29_attributes_end.
(** A second normalize changes nothing at all. *)
Theorem C29_attributes_twice attrs h f f2 this h' u :
  known h -> attributed attrs h -> normalize_all attrs f h this = Ok h' u ->
  normalize_all attrs f2 h' this = Ok h' tt \/ normalize_all attrs f2 h' this = Div.
Proof. exact (fun K => all_again attrs f f2 h this h' u (proj1 (known_good h K))). Qed.
Print Assumptions C29_attributes_twice.
(** It raises nothing if nothing below the node, or below an attribute there, is read-only. *)
Theorem C29_attributes_raises attrs h f this e h' :
  known h -> attributed attrs h -> kinds_ok h -> normalize_all attrs f h this = Ex e h' ->
  (forall q s, ~ (n_kind (h q) = KText \/ n_kind (h q) = KCData) -> content h q s -> content h' q s) /\
  exists n, within attrs h this n /\ n_ro (h n) = true.
Proof. exact (fun K AT KO => all_raises attrs f h this e h' (proj1 (known_good h K)) AT KO (known_frozen h K)). Qed.
Print Assumptions C29_attributes_raises.
Theorem C29_attributes_succeeds attrs h this :
  known h -> attributed attrs h -> kinds_ok h -> (forall n, within attrs h this n -> n_ro (h n) = false) ->
  exists f0 h', forall f, (f0 <= f)%nat -> normalize_all attrs f h this = Ok h' tt.
Proof. exact (fun K AT KO => all_succeeds attrs h this (proj1 (known_good h K)) AT KO (known_frozen h K) (few_finite h (proj1 (known_good h K)) (known_few h K))). Qed.
Print Assumptions C29_attributes_succeeds.
(** The tree stays sound, with the attributes where they were (C24), and nodes keep one owner (C52). *)
Theorem C24_attributes_partial attrs h f this h' u :
  known h -> attributed attrs h -> normalize_all attrs f h this = Ok h' u ->
  tree_ok h' /\ attributed attrs h' /\ forall i, n_kind (h' i) = n_kind (h i).
Proof.
  intros K AT E. destruct (all_good attrs f h this h' u (proj1 (known_good h K)) AT E) as (G & R). split; [exact (good_tree h' G)|exact R].
Qed.
Print Assumptions C24_attributes_partial.
Theorem C52_attributes_partial attrs h f this h' u c :
  known h -> attributed attrs h -> normalize_all attrs f h this = Ok h' u -> n_kind (h c) <> KDocument -> n_kind (h c) <> KDocType ->
  n_orphan (h' c) = true /\ (forall p, ~ In c (kids h' p)) \/
  n_orphan (h' c) = false /\ exists p a b, kids h' p = a ++ c :: b /\ ~ In c (a ++ b) /\ forall q, In c (kids h' q) -> q = p.
Proof.
  intros K AT E K1 K2. destruct (all_good attrs f h this h' u (proj1 (known_good h K)) AT E) as (G & _ & KS). apply (known_owner h' c G); rewrite KS; assumption.
Qed.
Print Assumptions C52_attributes_partial.

(** <1 2="ab" + "" + "b" 3="c">c c<10 11="c" + "c"/></1>: the attribute 2 has three texts, the element 1
    has two. *)
Definition attr_cast (i : nat) : nkind := match i with 0 => KDocument | 1 | 10 => KElement | 2 | 3 | 11 => KAttr | _ => KText end%nat.
Definition attr_text (i : nat) : str := match i with 4%nat => [97; 98] | 5%nat => [] | 6%nat => [98] | _ => [99] end.
Definition attr_page : list domop := [app 0 1; app 2 4; app 2 5; app 2 6; app 1 7; app 1 8; app 3 9; app 1 10; app 11 12; app 11 13]%nat.
Definition attr_stage : heap := fresh_heap attr_cast (fun _ => O) (fun i => Naming [] (attr_text i) None []).
Definition attr_after (ops : list domop) : heap := match dom_run 50 attr_stage ops with Some h => h | None => attr_stage end.
Definition attr_heap : heap := attr_after attr_page.
Definition attr_list (i : nat) : list nat := match i with 1 => [2; 3] | 10 => [11] | _ => [] end%nat.
Lemma attr_known : forall ops, match dom_run 50 attr_stage ops with Some _ => true | None => false end = true ->
  Forall (not_into_itself KDocument attr_stage) ops -> Forall (doctype_to_document attr_stage) ops -> known (attr_after ops) /\ kinds_ok (attr_after ops).
Proof.
  intros ops N F D. unfold attr_after. destruct (dom_run 50 attr_stage ops) as [h|] eqn:E; [|discriminate]. split.
  - apply (run_known 50 ops attr_cast (fun _ => O) (fun i => Naming [] (attr_text i) None [])); assumption.
  - exact (C51_child_kinds_partial attr_cast (fun _ => O) (fun i => Naming [] (attr_text i) None []) ops 50 h F D E).
Qed.
Lemma attr_owners : forall j a, In a (attr_list j) -> (j = 1 /\ (a = 2 \/ a = 3) \/ j = 10 /\ a = 11)%nat.
Proof. intros j a I. do 11 (destruct j as [|j]; [cbn in I; intuition lia|]). contradiction. Qed.
Lemma attr_attributed : forall h, known h -> map (fun i => n_parent (h i)) [10; 1; 0]%nat = [Some 1; Some 0; None]%nat ->
  map (fun i => n_kind (h i)) [10; 1; 0; 2; 3; 11]%nat = [KElement; KElement; KDocument; KAttr; KAttr; KAttr] -> attributed attr_list h.
Proof.
  intros h KN P K. pose proof (proj1 (known_good _ KN)) as G. injection P as P10 P1 P0. injection K as K10 K1 K0 K2 K3 K11.
  assert (N1 : forall a, at_or_below h a 1 -> n_kind (h a) <> KAttr). { intros a A. destruct (below_up _ _ _ _ G P1 A) as [->|B]; [congruence|]. rewrite (below_root _ _ _ G P0 B). congruence. }
  constructor.
  - intros j a I. apply attr_owners in I. destruct I as [(_ & [->| ->])|(_ & ->)]; assumption.
  - intros j k a I J. apply attr_owners in I. apply attr_owners in J. lia.
  - intros j. do 11 (destruct j as [|j]; [cbn; repeat constructor; cbn; intuition lia|]). constructor.
  - intros j a b I KB Q. apply attr_owners in I. destruct I as [(-> & _)|(-> & _)]; [exact (N1 b Q KB)|]. destruct (below_up _ _ _ _ G P10 Q) as [->|B]; [congruence|exact (N1 b B KB)].
  - intros j KT. destruct (attr_list j) as [|a l] eqn:E; [reflexivity|]. assert (I : In a (attr_list j)) by (rewrite E; left; reflexivity). apply attr_owners in I. destruct I as [(-> & _)|(-> & _)]; congruence.
Qed.
Example C29_attributes_case :
  (known attr_heap /\ attributed attr_list attr_heap /\ map (kids attr_heap) [1; 2; 3; 11] = [[7; 8; 10]; [4; 5; 6]; [9]; [12; 13]] /\
  match normalize_all attr_list 50 attr_heap 1 with
  | Ok h' _ => map (kids h') [1; 2; 3; 11] = [[7; 10]; [4]; [9]; [12]] /\ map (fun i => n_data (h' i)) [7; 4; 9; 12] = [[99; 99]; [97; 98; 98]; [99]; [99; 99]]%Z
  | _ => False
  end)%nat.
Proof.
  destruct (attr_known attr_page) as (K & _); [vm_compute; reflexivity|repeat constructor; intro; discriminate|repeat constructor; intro; discriminate|].
  split; [exact K|]. split; [apply attr_attributed; [exact K|vm_compute; reflexivity|vm_compute; reflexivity]|]. split; [vm_compute; reflexivity|]. vm_compute. split; reflexivity.
Qed.
(** The same with the attribute 11 read-only. *)
Definition attr_frozen : heap := attr_after (attr_page ++ [OpFreeze 11]%nat).
Example C29_attributes_frozen :
  known attr_frozen /\ kinds_ok attr_frozen /\ attributed attr_list attr_frozen /\ match normalize_all attr_list 50 attr_frozen 1 with Ex NO_MODIFICATION _ => true | _ => false end = true.
Proof.
  destruct (attr_known (attr_page ++ [OpFreeze 11]%nat)) as (K & O); [vm_compute; reflexivity|repeat constructor; intro; discriminate|repeat constructor; intro; discriminate|].
  split; [exact K|]. split; [exact O|]. split; [apply attr_attributed; [exact K|vm_compute; reflexivity|vm_compute; reflexivity]|]. vm_compute. reflexivity.
Qed.
Example C29_attributes_writable : known attr_heap /\ kinds_ok attr_heap /\ forall n, n_ro (attr_heap n) = false.
Proof.
  destruct (attr_known attr_page) as (K & O); [vm_compute; reflexivity|repeat constructor; intro; discriminate|repeat constructor; intro; discriminate|].
  split; [exact K|]. split; [exact O|]. intros n. do 14 (destruct n as [|n]; [vm_compute; reflexivity|]). vm_compute. reflexivity.
Qed.
Example C52_attributes_case :
  match normalize_all attr_list 50 attr_heap 1 with
  | Ok h' _ => map (fun i => n_orphan (h' i)) [4; 5; 6; 7; 8; 12; 13]%nat = [false; true; true; false; true; false; true]
  | _ => False
  end.
Proof. vm_compute. reflexivity. Qed.
