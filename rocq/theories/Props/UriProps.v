(** C14-C15: URIs. *)
From Verif.Model Require Import Base Text Uri.
From Verif.Spec Require Import UriSpec.
From Verif.Proof Require Import UriProof UriResolveProof.

(** C14. The full property, "parse (as_string u) = u for every parsed u", is
    false: a drive path, and an empty authority, print as something else. *)
Theorem C14_roundtrip_refuted :
  (exists s u, parse s = Val u /\ exists v, parse (as_string u) = Val v /\ v <> u)
  /\ (exists s u, parse s = Val u /\ parse (as_string u) = UB).
Proof.
  split.
  - (* "C:/x" *) exists [67; 58; 47; 120]. eexists. split; [reflexivity|].
    eexists. split; [vm_compute; reflexivity|]. discriminate.
  - (* "http://" *) exists [104; 116; 116; 112; 58; 47; 47]. eexists. split; reflexivity.
Qed.
Print Assumptions C14_roundtrip_refuted.

(** What holds: exactly the URIs of canonical shape survive. *)
Theorem C14_roundtrip_partial : forall s u, parse s = Val u ->
  (parse (as_string u) = Val u
   <-> canonical (u_scheme u) (u_host u) (u_port u) (u_path u)).
Proof. exact roundtrip_iff. Qed.
Print Assumptions C14_roundtrip_partial.

(** Parsing itself is not defined on every string: a scheme followed by nothing,
    or by one slash, makes the parser look past the end. *)
Theorem C14_parse_total_refuted : exists s, parse s = UB.
Proof. exists [104; 116; 116; 112; 58]. reflexivity. Qed.
Print Assumptions C14_parse_total_refuted.

(** "http://h:80/p" *)
Example C14_case :
  parse [104;116;116;112;58;47;47;104;58;56;48;47;112]
  = Val (Uri [104;116;116;112] [104] [56;48] [47;112] true)
  /\ canonical [104;116;116;112] [104] [56;48] [47;112].
Proof.
  split; [reflexivity|]. right. repeat split; try (cbn; intuition discriminate).
  right. left. repeat split; try (cbn; intuition discriminate). exists [112]. reflexivity.
Qed.

(** C15. Against a base with a rooted path: what the library computes for a
    relative path, for every base and every reference of segments. *)
Theorem C15_resolves_segments : forall base dir last rel,
  u_path base = path_of (dir ++ [last]) -> Forall slash_free dir -> slash_free last ->
  Forall slash_free rel -> Forall (fun s => ~ In 58 s /\ ~ In 92 s) rel ->
  hd [] rel <> [] ->
  resolve base (rel_text rel)
  = Val (Some (put_path base (path_of (drop_dot (drop_dotdot dir rel))))).
Proof. exact resolve_spec. Qed.
Print Assumptions C15_resolves_segments.

(** That is RFC 3986 as long as no ".." follows a "." in the reference
    and the reference does not end in either. *)
Theorem C15_rfc3986_partial : forall base dir last rel,
  u_path base = path_of (dir ++ [last]) -> Forall slash_free dir -> slash_free last ->
  Forall (fun s => s <> dot) dir ->
  Forall slash_free rel -> Forall (fun s => ~ In 58 s /\ ~ In 92 s) rel ->
  hd [] rel <> [] -> dots_last rel -> names_file rel ->
  resolve base (rel_text rel) = Val (Some (put_path base (path_of (rfc_resolve dir rel)))).
Proof. exact resolve_rfc. Qed.
Print Assumptions C15_rfc3986_partial.

(** Both conditions are needed: "/d/" with "./../b" gives "/d/b", and with "x/.."
    it gives "/d/x/..". *)
Theorem C15_rfc3986_refuted :
  let wrong rel := exists base dir last,
    u_path base = path_of (dir ++ [last]) /\ Forall slash_free dir /\ slash_free last
    /\ Forall slash_free rel
    /\ exists u, resolve base (rel_text rel) = Val (Some u)
                 /\ u_path u <> path_of (rfc_resolve dir rel) in
  wrong [dot; dotdot; [98]] /\ wrong [[120]; dotdot].
Proof.
  split; exists (Uri [] [] [] [47; 100; 47] false), [[100]], [];
  unfold slash_free, dot, dotdot;
  repeat split; repeat constructor; try (cbn; intuition discriminate);
  (eexists; split; [vm_compute; reflexivity|]; vm_compute; discriminate).
Qed.
Print Assumptions C15_rfc3986_refuted.

(** Resolution can fail: against a base without a path it reads before the
    string, and against a rootless directory ".." throws out_of_range. *)
Theorem C15_never_fails_refuted :
  (exists b base, parse b = Val base /\ resolve base [120] = UB)
  /\ (exists b base, parse b = Val base /\ resolve base [46; 46; 47; 98] = Val None).
Proof.
  split.
  - (* "http://h" *) exists [104;116;116;112;58;47;47;104]. eexists. split; reflexivity.
  - (* "a/" *) exists [97; 47]. eexists. split; reflexivity.
Qed.
Print Assumptions C15_never_fails_refuted.

(** Absolute references, and those of another scheme, ignore the base; a rooted
    path replaces the path alone. *)
Theorem C15_absolute : forall base s u, s <> [] -> parse s = Val u -> u_abs u = true ->
  resolve base s = Val (Some u).
Proof. exact resolve_absolute. Qed.
Print Assumptions C15_absolute.

Theorem C15_other_scheme : forall base s u, s <> [] -> parse s = Val u ->
  u_scheme u <> [] -> u_scheme u <> u_scheme base -> u_scheme base <> [] ->
  resolve base s = Val (Some u).
Proof. exact resolve_other_scheme. Qed.
Print Assumptions C15_other_scheme.

Theorem C15_rooted : forall base s, starts 47 s -> ~ In 58 s -> ~ In 92 s ->
  resolve base s = Val (Some (put_path base s)).
Proof. exact resolve_rooted. Qed.
Print Assumptions C15_rooted.

(** "/a/b/c" with "../x/./y" is "/a/x/y". *)
Example C15_case :
  let base := Uri [] [] [] [47;97;47;98;47;99] false in
  u_path base = path_of ([[97]; [98]] ++ [[99]])
  /\ rel_text [dotdot; [120]; dot; [121]] = [46;46;47;120;47;46;47;121]
  /\ dots_last [dotdot; [120]; dot; [121]] /\ names_file [dotdot; [120]; dot; [121]]
  /\ resolve base [46;46;47;120;47;46;47;121]
     = Val (Some (put_path base [47;97;47;120;47;121])).
Proof.
  repeat split; try discriminate. intros _. cbn. intuition discriminate.
Qed.

(** An empty reference is to the base itself. *)
Theorem C15_empty : forall base, resolve base [] = Val (Some base).
Proof. reflexivity. Qed.
Print Assumptions C15_empty.
(** The port that is used is the one that is given, or else 80 for http, 443 for https and 0 for
    other schemes. *)
Theorem C14_port : forall u,
  (u_port u <> [] -> uri_port u = u_port u)
  /\ (u_port u = [] -> uri_port u = if str_eqb (u_scheme u) [104;116;116;112] then [56; 48] else if str_eqb (u_scheme u) [104;116;116;112;115] then [52; 52; 51] else [48]).
Proof. intros [sc h p pa a]. unfold uri_port. cbn [u_port u_scheme]. destruct p; split; intros H; try contradiction; try discriminate; reflexivity. Qed.
Print Assumptions C14_port.
Example C14_https : uri_port (Uri [104;116;116;112;115] [104] [] [47] true) = [52; 52; 51].
Proof. reflexivity. Qed.
