(** What a socket stream should do: give the text that arrives, in whatever pieces it does, and
    send the text that was written. *)
From Verif.Model Require Import Base ConvertIo Socket.
From Verif.Spec Require Import ConvertIoSpec.

(** Pieces of a text, none of them empty. *)
Definition pieces (parts : list str) : list arrival := map Bytes parts.
Definition all_some (parts : list str) : Prop := Forall (fun p : str => p <> []) parts.

(** The calls move a place in the text, until one of them finds the end: the connection is
    closed then, and every further call answers that there is nothing. *)
Inductive hears : place -> nat -> list reading -> list (option Z) -> Prop :=
| ears_open : forall p n, hears p n [] []
| hears_on : forall p n op a p1 n1 ops l,
    moves p n op a p1 n1 -> ~ (a = None /\ forward op) -> hears p1 n1 ops l -> hears p n (op :: ops) (a :: l)
| hears_end : forall b n op ops, forward op -> hears (b, []) n (op :: ops) (None :: repeat None (length ops)).

(** The characters said, and how often anything is called. *)
Fixpoint said (ops : list speaking) : str :=
  match ops with
  | [] => []
  | Say c :: ops => c :: said ops
  | _ :: ops => said ops
  end.
Definition not_closing (op : speaking) : Prop := op <> Close.

(** A response: its status line and headers, each ended by a carriage return and a line feed, an
    empty line, and the document. *)
Definition crlf : str := [13; 10].
Definition response (headers : list str) (document : str) : str :=
  concat (map (fun h => h ++ crlf) headers) ++ crlf ++ document.
Definition header (h : str) : Prop := h <> [] /\ ~ In 10 h /\ hd 0 h <> 13.
