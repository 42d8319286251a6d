(** Independent descriptions of URIs and of relative resolution. *)
From Coq Require Import List ZArith.
Import ListNotations.
Open Scope Z_scope.

(** Components (scheme, host, port, path) that a printed URI determines. *)
Definition file_scheme : list Z := [102; 105; 108; 101].
Definition starts (c : Z) (s : list Z) : Prop := exists r, s = c :: r.

Definition canonical (scheme host port path : list Z) : Prop :=
  (* a relative path, without colon or backslash *)
  (scheme = [] /\ host = [] /\ port = [] /\ ~ In 58 path /\ ~ In 92 path)
  \/ (* a scheme, which one letter alone is not *)
  (scheme <> [] /\ length scheme <> 1%nat /\ ~ In 58 scheme /\
   ((* with an authority alone *)
    (host <> [] /\ ~ In 47 host /\ port = [] /\ path = [])
    \/ (* with an authority and a path *)
    (host <> [] /\ ~ In 47 host /\ ~ In 58 host /\ ~ In 47 port /\ starts 47 path)
    \/ (* with a rootless path that does not look like a drive *)
    (host = [] /\ port = [] /\ path <> [] /\ ~ starts 47 path
     /\ ~ (scheme = file_scheme /\ nth 1 path 0 = 58))
    \/ (* with a rooted path *)
    (host = [] /\ port = [] /\ starts 47 path
     /\ (scheme = file_scheme \/ exists c r, path = 47 :: c :: r /\ c <> 47)))).

(** A rooted path as its segments: "/a/b/c" is [a; b; c], "/a/" is [a; ""]. *)
Definition path_of (segs : list (list Z)) : list Z := concat (map (fun s => 47 :: s) segs).
Definition slash_free (s : list Z) : Prop := ~ In 47 s.
Definition dot : list Z := [46].
Definition dotdot : list Z := [46; 46].
Definition is_seg (a b : list Z) : bool := if list_eq_dec Z.eq_dec a b then true else false.

(** RFC 3986 section 5.2.4 on segments: ".." drops the last directory (none at the
    root), "." nothing; as the last segment both leave an open directory. *)
Fixpoint rfc_resolve (dir rel : list (list Z)) : list (list Z) :=
  match rel with
  | [] => dir
  | [last] =>
      if is_seg last dotdot then removelast dir ++ [[]]
      else if is_seg last dot then dir ++ [[]]
      else dir ++ [last]
  | s :: rel' =>
      if is_seg s dotdot then rfc_resolve (removelast dir) rel'
      else if is_seg s dot then rfc_resolve dir rel'
      else rfc_resolve (dir ++ [s]) rel'
  end.

(** What the library computes: first every ".." drops the segment written before
    it, even a ".", and then every "." but a final one goes. *)
Fixpoint drop_dotdot (dir rel : list (list Z)) : list (list Z) :=
  match rel with
  | [] => dir
  | [last] => dir ++ [last]
  | s :: rel' =>
      if is_seg s dotdot then drop_dotdot (removelast dir) rel'
      else drop_dotdot (dir ++ [s]) rel'
  end.
Fixpoint drop_dot (segs : list (list Z)) : list (list Z) :=
  match segs with
  | [] => []
  | [last] => [last]
  | s :: segs' => if is_seg s dot then drop_dot segs' else s :: drop_dot segs'
  end.

(** No ".." stands after a ".". *)
Fixpoint dots_last (rel : list (list Z)) : Prop :=
  match rel with
  | [] => True
  | s :: rel' => (s = dot -> ~ In dotdot rel') /\ dots_last rel'
  end.

(** The reference ends with a name. *)
Definition names_file (rel : list (list Z)) : Prop :=
  last rel [] <> dot /\ last rel [] <> dotdot.

(** The text of a relative path of segments. *)
Fixpoint rel_text (segs : list (list Z)) : list Z :=
  match segs with
  | [] => []
  | [s] => s
  | s :: r => s ++ 47 :: rel_text r
  end.
