(** C74: reading and writing through a socket, and fetching a document by HTTP. *)
From Coq Require Import Lia.
From Verif.Model Require Import Base ConvertIo Socket.
From Verif.Spec Require Import ConvertIoSpec SocketSpec.
From Verif.Proof Require Import Tac SocketProof.
From Verif.Props Require Import FilterProps.
From Coq Require Import String List ZArith.
Import ListNotations.
Open Scope Z_scope.

(** Whatever pieces the text arrives in, whatever is called: the answers are those of a place
    moving in the whole text, up to the first call that finds its end, or a memcpy goes wrong. *)
Theorem C74_reads_partial : forall parts ops, all_some parts ->
  listen_run ops (listen (pieces parts)) = UB \/
  exists l answers, listen_run ops (listen (pieces parts)) = Val (l, answers) /\ hears ([], concat parts) 0 ops answers.
Proof.
  intros parts ops H. destruct (listen_lemma ops _ _ 0 (listens_new parts H)) as [[E _]|E]; cbn; auto; lia.
Qed.
Print Assumptions C74_reads_partial.

(** It does not when no piece is longer than 1024 bytes and no piece but the first is shorter
    than four. *)
Theorem C74_reads_calm_partial : forall parts ops, all_some parts ->
  Forall (fun p : str => (List.length p <= 1024)%nat) parts -> Forall (fun p : str => (4 <= List.length p)%nat) (tl parts) ->
  exists l answers, listen_run ops (listen (pieces parts)) = Val (l, answers) /\ hears ([], concat parts) 0 ops answers.
Proof.
  intros parts ops H H1 H2. destruct (listen_lemma ops _ _ 0 (listens_new parts H)) as [[_ E]|E]; [cbn; lia|lia| |exact E].
  exfalso. apply E. exists parts. split; [reflexivity|]. split; [exact H1|].
  destruct parts as [|p parts]; [constructor|]. cbn [tl] in *. apply Forall_inv_tail in H1. clear - H1 H2.
  induction parts as [|q parts IH]; constructor.
  - split; [exact (Forall_inv H2)|exact (Forall_inv H1)].
  - apply IH; [exact (Forall_inv_tail H1)|exact (Forall_inv_tail H2)].
Qed.
Print Assumptions C74_reads_calm_partial.

Example C74_reads_case :
  exists l, listen_run [Get; Get; Unget; Get; Get; Peek; Unget; Get; Get; Get; Get; Peek; Unget] (listen (pieces [lit "<a"; lit "/>bc"]))
  = Val (l, [Some 60; Some 97; Some 97; Some 97; Some 47; Some 62; Some 47; Some 47; Some 62; Some 98; Some 99; None; None]).
Proof. eexists. vm_compute. reflexivity. Qed.

(** Three pieces of one byte: the characters kept for stepping back are copied over
    themselves with memcpy, which is undefined. *)
Theorem C74_small_pieces_refuted :
  listen_run [Get; Get; Get] (listen (pieces [lit "<"; lit "a"; lit ">"])) = UB.
Proof. vm_compute. reflexivity. Qed.
Print Assumptions C74_small_pieces_refuted.

(** An error of the connection is told as the end of the text. *)
Theorem C74_error_refuted : forall r,
  exists l, listen_run [Get; Get; Get] (listen (Bytes (lit "<a") :: Error :: r)) = Val (l, [Some 60; Some 97; None]).
Proof. intros r. eexists. vm_compute. reflexivity. Qed.
Print Assumptions C74_error_refuted.

(** Once the end has been found the character before it cannot be stepped back to, which
    the same calls on a converting stream can. *)
Theorem C74_after_end_refuted :
  exists l, listen_run [Get; Peek; Unget] (listen (pieces [lit "a"])) = Val (l, [Some 97; None; None]).
Proof. eexists. vm_compute. reflexivity. Qed.
Print Assumptions C74_after_end_refuted.

(** * Writing *)

(** Everything written, in whatever portions it is flushed, has been sent in order by the
    time the stream is destroyed; provided that something is written first, that every send
    takes all it is given and that the stream is not closed by hand. *)
Theorem C74_writes_partial : forall c ops, Forall not_closing ops ->
  all_said [] (Say c :: ops) = Val (c :: said ops, repeat true (List.length ops + 1)).
Proof. exact all_said_lemma. Qed.
Print Assumptions C74_writes_partial.

Example C74_writes_case :
  all_said [] [Say 71; Say 69; Sync; Say 84; Sync; Sync; Say 10] = Val ([71; 69; 84; 10], repeat true 7).
Proof. vm_compute. reflexivity. Qed.

(** A send that takes part of what it is given is success; the rest is lost. *)
Theorem C74_short_send_refuted :
  all_said [Took 2] [Say 71; Say 69; Say 84; Sync; Say 10] = Val ([71; 69; 10], [true; true; true; true; true]).
Proof. vm_compute. reflexivity. Qed.
Print Assumptions C74_short_send_refuted.

(** Closing does not send what was written; and until the buffer is full characters are
    accepted after it. *)
Theorem C74_close_refuted :
  all_said [] [Say 71; Close; Say 69] = Val ([], [true; true; true]).
Proof. vm_compute. reflexivity. Qed.
Print Assumptions C74_close_refuted.

(** A stream that is only read from takes the address of the first element of an empty
    vector when it is destroyed, and so does a flush before the first character. *)
Theorem C74_unwritten_refuted : all_said [] [] = UB /\ all_said [] [Sync; Say 71] = UB.
Proof. split; vm_compute; reflexivity. Qed.
Print Assumptions C74_unwritten_refuted.

(** * HTTP *)

(** The document of a response, from its first character on, is what is left for the parser. *)
Theorem C74_http_partial : forall headers document,
  Forall header headers -> Forall (fun h : str => (List.length h <= 1022)%nat) headers ->
  skip_headers (List.length headers + 1) (response headers document) = Val document.
Proof. exact headers_lemma. Qed.
Print Assumptions C74_http_partial.

Example C74_http_case :
  Forall header [lit "HTTP/1.0 200 OK"; lit "Content-Type: text/xml"] /\
  skip_headers 3 (response [lit "HTTP/1.0 200 OK"; lit "Content-Type: text/xml"] (lit "<a/>")) = Val (lit "<a/>").
Proof.
  split; [|vm_compute; reflexivity].
  repeat constructor; cbv; try discriminate; intros Q; repeat (destruct Q as [Q|Q]; [discriminate Q|]); exact Q.
Qed.

(** The status is not looked at: the page that says that there is no such document is
    taken for the document. *)
Theorem C74_status_refuted :
  skip_headers 3 (response [lit "HTTP/1.0 404 Not Found"; lit "Content-Type: text/html"] (lit "<p>Not found</p>")) = Val (lit "<p>Not found</p>").
Proof. vm_compute. reflexivity. Qed.
Print Assumptions C74_status_refuted.

(** A connection that closes before the empty line, a response whose lines end in a line feed
    alone, and one with a header of more than 1023 characters all keep the caller waiting for
    ever. *)
Theorem C74_unending_refuted : forall fuel,
  skip_headers fuel [] = Base.NoFuel /\
  skip_headers fuel (lit "HTTP/1.0 200 OK" ++ crlf) = Base.NoFuel /\
  skip_headers fuel (lit "HTTP/1.0 200 OK" ++ [10; 10] ++ lit "<a/>") = Base.NoFuel /\
  skip_headers fuel (response [lit "HTTP/1.0 200 OK"; repeat 65 1024] (lit "<a/>")) = Base.NoFuel.
Proof.
  assert (S1 : forall text l rest, line 1023 text = Some (l, rest) -> match l with c :: _ => c =? 13 | [] => false end = false ->
    (forall fuel, skip_headers fuel rest = Base.NoFuel) -> forall fuel, skip_headers fuel text = Base.NoFuel).
  { intros text l rest E Q H [|fuel]; [reflexivity|]. cbn [skip_headers]. rewrite E, Q. apply H. }
  assert (S2 : forall text, line 1023 text = None -> match text with c :: _ => c =? 13 | [] => false end = false ->
    forall fuel, skip_headers fuel text = Base.NoFuel).
  { intros text E Q [|fuel]; [reflexivity|]. cbn [skip_headers]. rewrite E, Q. apply no_more. }
  assert (E : forall fuel, skip_headers fuel (lit "<a/>") = Base.NoFuel).
  { refine (S1 _ (lit "<a/>") [] _ _ _); [vm_compute; reflexivity|vm_compute; reflexivity|exact no_more]. }
  intros fuel. split; [apply no_more|]. split; [|split].
  - revert fuel. eapply S1; [vm_compute; reflexivity|vm_compute; reflexivity|exact no_more].
  - revert fuel. refine (S1 _ (lit "HTTP/1.0 200 OK") ([10] ++ lit "<a/>") _ _ _); [vm_compute; reflexivity|vm_compute; reflexivity|].
    refine (S1 _ [] (lit "<a/>") _ _ E); vm_compute; reflexivity.
  - revert fuel. refine (S1 _ (lit "HTTP/1.0 200 OK" ++ [13]) (response [repeat 65 1024] (lit "<a/>")) _ _ _); [vm_compute; reflexivity|vm_compute; reflexivity|].
    apply S2; vm_compute; reflexivity.
Qed.
Print Assumptions C74_unending_refuted.
