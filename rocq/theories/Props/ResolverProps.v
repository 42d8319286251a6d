(** C75: where the bytes of a document come from. *)
From Coq Require Import Lia.
From Verif.Model Require Import Base Text Uri Resolver.
From Verif.Spec Require Import UriSpec ResolverSpec.
From Verif.Proof Require Import Tac ContainersProof UriProof ResolverProof.
From Verif.Props Require Import FilterProps.
From Coq Require Import String List ZArith.
Import ListNotations.
Open Scope Z_scope.

(** A byte stream that was given is read, whatever the system identifier; and it is not the
    resolver's to delete. *)
Theorem C75_given : forall T fs (r : registry (T := T)) s o, open fs r true s = Val o -> fst o = Some Lent /\ deleted o = None.
Proof. intros T fs r s o E. injection E as <-. split; reflexivity. Qed.
Print Assumptions C75_given.

(** A plain name is that of the file that is opened and deleted; without such a file there is no
    stream, and nothing to delete. *)
Theorem C75_name : forall T fs (r : registry (T := T)) s, plain_name s ->
  match fs s with
  | Some contents => exists o, open fs r false s = Val o /\ fst o = Some (File s contents) /\ deleted o = fst o
  | None => exists o, open fs r false s = Val o /\ fst o = None /\ deleted o = None
  end.
Proof.
  intros T fs r s H. rewrite (open_plain fs r s H). destruct (fs s); eexists; (split; [reflexivity|]; split; reflexivity).
Qed.
Print Assumptions C75_name.

(** After any history of registrations, the resolver in force for the scheme is given the whole
    system identifier, and the stream it answers is used and deleted. *)
Theorem C75_registered : forall T fs (history : list (change (T := T))) s scheme rest f t,
  has_scheme s scheme rest -> in_force scheme history (Some f) -> f s = Val (Some t) ->
  exists o, open fs (changed history []) false s = Val o /\ fst o = Some t /\ deleted o = Some t.
Proof.
  intros T fs history s scheme rest f t H F E. eexists. split; [exact (open_registered fs history s scheme rest f t H F E)|]. split; reflexivity.
Qed.
Print Assumptions C75_registered.
Theorem C75_in_force : forall T scheme (history : list (change (T := T))), exists f, in_force scheme history f.
Proof. intros T scheme history. exact (in_force_total scheme history). Qed.
Print Assumptions C75_in_force.

(** file:/path and file:///path are the file /path. *)
Theorem C75_file : forall T fs (history : list (change (T := T))) path contents,
  in_force s_file history (Some (file_resolver fs)) ->
  starts 47 path -> ~ starts 47 (tl path) -> tl path <> [] -> ~ In 0 path -> fs path = Some contents ->
  open fs (changed history []) false ([102; 105; 108; 101] ++ [58] ++ path) = Val (Some (File path contents), true) /\
  open fs (changed history []) false ([102; 105; 108; 101] ++ [58; 47; 47] ++ path) = Val (Some (File path contents), true).
Proof.
  intros T fs history path contents F H1 H2 H3 H4 H5. destruct (file_parsed path H1 H2 H3) as [P1 P2].
  split; unfold open; [rewrite P1|rewrite P2]; cbn [obind u_scheme]; rewrite (in_force_found _ _ _ F); unfold file_resolver at 1; [rewrite P1|rewrite P2];
    cbn [obind u_path]; unfold open_file; rewrite c_str_same by exact H4; rewrite H5; reflexivity.
Qed.
Print Assumptions C75_file.

(** Where there is no such file, file:///C:/path is the file C:\path; without a drive, the
    slashes are turned. *)
Definition turned (s : str) : str := map (fun c => if c =? 47 then 92 else c) s.
Theorem C75_drive : forall T fs (history : list (change (T := T))) drive rest contents,
  in_force s_file history (Some (file_resolver fs)) ->
  drive <> 47 -> drive <> 0 -> ~ In 0 rest -> fs (47 :: drive :: 58 :: rest) = None -> fs (drive :: 58 :: turned rest) = Some contents ->
  open fs (changed history []) false (lit "file://" ++ 47 :: drive :: 58 :: rest) = Val (Some (File (drive :: 58 :: turned rest) contents), true).
Proof.
  intros T fs history drive rest contents F D0 D1 R E1 E2.
  assert (N : forall l, ~ In 0 l -> ~ In 0 (turned l)).
  { intros l H I. apply in_map_iff in I. destruct I as (c & E & I). destruct (c =? 47); [discriminate|]. subst c. exact (H I). }
  destruct (file_parsed (47 :: drive :: 58 :: rest)) as [_ P]; [eexists; reflexivity|intros (c & Q); injection Q as Q _; congruence|discriminate|].
  unfold open. change (lit "file://" ++ 47 :: drive :: 58 :: rest) with ([102; 105; 108; 101] ++ [58; 47; 47] ++ 47 :: drive :: 58 :: rest). rewrite P.
  cbn [obind u_scheme]. rewrite (in_force_found _ _ _ F). unfold file_resolver at 1. rewrite P. cbn [obind u_path].
  unfold open_file. rewrite !(c_str_same (47 :: drive :: 58 :: rest)) by (cbn [In]; intuition discriminate). rewrite !E1.
  cbn [map]. replace (47 =? slash) with true by reflexivity. replace (drive =? slash) with false by (symmetry; apply Z.eqb_neq; exact D0).
  replace (58 =? slash) with false by reflexivity. replace (92 =? 92) with true by reflexivity. cbn [nth]. replace (58 =? colon) with true by reflexivity.
  change (map (fun c => if c =? slash then 92 else c) rest) with (turned rest). rewrite (c_str_same (drive :: 58 :: turned rest)); [rewrite E2; reflexivity|].
  cbn [In]. intros [Q|[Q|Q]]; [congruence|discriminate|exact (N _ R Q)].
Qed.
Print Assumptions C75_drive.
Theorem C75_turned : forall T fs (history : list (change (T := T))) c d rest contents,
  in_force s_file history (Some (file_resolver fs)) ->
  c <> 47 -> ~ In 0 (c :: d :: rest) -> d <> 58 -> fs (47 :: c :: d :: rest) = None -> fs (turned (47 :: c :: d :: rest)) = Some contents ->
  open fs (changed history []) false (lit "file://" ++ 47 :: c :: d :: rest) = Val (Some (File (turned (47 :: c :: d :: rest)) contents), true).
Proof.
  intros T fs history c d rest contents F D0 R D1 E1 E2.
  assert (N : forall l, ~ In 0 l -> ~ In 0 (turned l)).
  { intros l H I. apply in_map_iff in I. destruct I as (z & E & I). destruct (z =? 47); [discriminate|]. subst z. exact (H I). }
  destruct (file_parsed (47 :: c :: d :: rest)) as [_ P]; [eexists; reflexivity|intros (z & Q); injection Q as Q _; congruence|discriminate|].
  assert (R' : ~ In 0 (47 :: c :: d :: rest)) by (cbn [In] in *; intuition discriminate).
  unfold open. change (lit "file://" ++ 47 :: c :: d :: rest) with ([102; 105; 108; 101] ++ [58; 47; 47] ++ 47 :: c :: d :: rest). rewrite P.
  cbn [obind u_scheme]. rewrite (in_force_found _ _ _ F). unfold file_resolver at 1. rewrite P. cbn [obind u_path].
  unfold open_file. rewrite !(c_str_same (47 :: c :: d :: rest)) by exact R'. rewrite !E1.
  change (map (fun z => if z =? slash then 92 else z) (47 :: c :: d :: rest)) with (92 :: turned (c :: d :: rest)).
  replace (92 =? 92) with true by reflexivity.
  assert (K : (nth 2 (92 :: turned (c :: d :: rest)) 0 =? colon) = false).
  { cbn [turned map nth]. destruct (d =? 47); [reflexivity|]. apply Z.eqb_neq. exact D1. }
  rewrite K. cbn [turned map]. fold (turned rest).
  change (92 :: (if c =? 47 then 92 else c) :: (if d =? 47 then 92 else d) :: turned rest) with (turned (47 :: c :: d :: rest)).
  rewrite (c_str_same (turned (47 :: c :: d :: rest))) by (apply N; exact R'). rewrite E2. reflexivity.
Qed.
Print Assumptions C75_turned.

(** * Cases *)
Definition one_file (name contents : str) : files := fun n => if str_eqb n name then Some contents else None.
(** A resolver that cannot reach its host. *)
Definition unreachable : resolver (T := unit) := fun _ => Val None.
Definition usual (fs : files) : list (change (T := unit)) := [Register s_file (file_resolver fs); Register s_http unreachable].
Definition opened (fs : files) (s : str) : outcome (option (stream (T := unit)) * bool) := open fs (changed (usual fs) []) false s.

Example C75_case : opened (one_file (lit "/d/a.xml") (lit "<a/>")) (lit "file:///d/a.xml") = Val (Some (File (lit "/d/a.xml") (lit "<a/>")), true)
  /\ opened (one_file (lit "a.xml") (lit "<a/>")) (lit "a.xml") = Val (Some (File (lit "a.xml") (lit "<a/>")), true)
  /\ opened (one_file (lit "a.xml") (lit "<a/>")) (lit "b.xml") = Val (None, false).
Proof. repeat split; vm_compute; reflexivity. Qed.
Example C75_case_drive : opened (one_file (lit "C:\d\a.xml") (lit "<a/>")) (lit "file:///C:/d/a.xml") = Val (Some (File (lit "C:\d\a.xml") (lit "<a/>")), true)
  /\ in_force s_file (usual (one_file (lit "C:\d\a.xml") (lit "<a/>"))) (Some (file_resolver (one_file (lit "C:\d\a.xml") (lit "<a/>")))).
Proof.
  split; [vm_compute; reflexivity|]. apply (by_registering s_file []). intros c [<-|[]]. vm_compute. discriminate.
Qed.
Example C75_case_registered : exists o, open (one_file [] []) (changed [Register (lit "db") (fun s => Val (Some (Made s))); Register (lit "x") (fun s => Val None); Unregister (lit "x")] []) false (lit "db:row/1") = Val o
  /\ fst o = Some (Made (lit "db:row/1")) /\ deleted o = Some (Made (lit "db:row/1")).
Proof.
  eapply C75_registered.
  - instantiate (1 := lit "row/1"). instantiate (1 := lit "db").
    split; [reflexivity|]. split; [vm_compute; intros Q; repeat (destruct Q as [Q|Q]; [discriminate Q|]); exact Q|].
    split; [discriminate|]. split; [discriminate|]. split; discriminate.
  - apply (by_registering (lit "db") [] (fun s => Val (Some (Made s)))). intros c [<-|[<-|[]]]; vm_compute; discriminate.
  - reflexivity.
Qed.

(** * Where it is wrong *)

(** When the resolver of a scheme has no stream, the path alone is opened as a local file: of a
    document on a host that is not reached, of a host named in a file URL, of a scheme nobody
    registered. *)
Theorem C75_remote_refuted :
  opened (one_file (lit "/etc/passwd") (lit "secret")) (lit "http://example.org/etc/passwd") = Val (Some (File (lit "/etc/passwd") (lit "secret")), true) /\
  opened (one_file (lit "/etc/passwd") (lit "secret")) (lit "file://example.org/etc/passwd") = Val (Some (File (lit "/etc/passwd") (lit "secret")), true) /\
  opened (one_file (lit "/etc/passwd") (lit "secret")) (lit "ftp://example.org/etc/passwd") = Val (Some (File (lit "/etc/passwd") (lit "secret")), true).
Proof. repeat split; vm_compute; reflexivity. Qed.
Print Assumptions C75_remote_refuted.

(** A file whose name has a colon or a backslash is not opened, though it is there; another one is. *)
Theorem C75_other_file_refuted :
  let fs n := if str_eqb n (lit "v1:a.xml") then Some (lit "<asked/>") else if str_eqb n (lit "a.xml") then Some (lit "<other/>") else None in
  opened fs (lit "v1:a.xml") = Val (Some (File (lit "a.xml") (lit "<other/>")), true) /\
  opened (one_file (lit "a\b.xml") (lit "<asked/>")) (lit "a\b.xml") = Val (None, false).
Proof. split; vm_compute; reflexivity. Qed.
Print Assumptions C75_other_file_refuted.

(** Fragments and queries are part of the name, and %20 is not a space. *)
Theorem C75_url_refuted :
  opened (one_file (lit "/d/a.xml") (lit "<a/>")) (lit "file:///d/a.xml#b") = Val (None, false) /\
  opened (one_file (lit "/d/a b.xml") (lit "<a/>")) (lit "file:///d/a%20b.xml") = Val (None, false).
Proof. split; vm_compute; reflexivity. Qed.
Print Assumptions C75_url_refuted.

(** Without a file of the name "/", file:/// looks beyond the end of the name; a scheme alone
    looks beyond the end of the system identifier. *)
Theorem C75_beyond_refuted :
  opened (one_file (lit "a.xml") []) (lit "file:///") = UB /\ opened (one_file (lit "a.xml") []) (lit "http:") = UB.
Proof. split; vm_compute; reflexivity. Qed.
Print Assumptions C75_beyond_refuted.
