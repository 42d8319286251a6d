(** The shared pointers to byte streams inside input sources: include/SAX/IStreamHandle.hpp,
    held by the InputSource of include/SAX/InputSource.hpp (byteStream_), where copying and
    assigning sources copies and assigns handles (151-158), and getByteStreamHandle copies
    (219-222).

    Streams, counters and variables are numbers.  A count is an unbounded integer, and `new`
    does not fail. *)
From Verif.Model Require Import Base.

(** is_, counter_ and owner_, 259-261. *)
Record handle := Handle { h_stream : option nat; h_counter : option nat; h_owner : bool }.
(** The counters by address, None when there is none or it has been deleted; the next address
    `new int` gives; the streams that were deleted, last first; and the handles there are. *)
Record memory := Memory {
  m_counters : nat -> option Z; m_next : nat; m_deleted : list nat; m_handles : list (nat * handle) }.
Definition start : memory := Memory (fun _ => None) 0 [] [].

Definition set_counter (c : nat) (n : option Z) (m : memory) : memory :=
  Memory (fun d => if Nat.eqb d c then n else m_counters m d) (m_next m) (m_deleted m) (m_handles m).
Fixpoint without {A} (v : nat) (l : list (nat * A)) : list (nat * A) :=
  match l with [] => [] | (w, a) :: l => if Nat.eqb w v then without v l else (w, a) :: without v l end.
Fixpoint at_ {A} (v : nat) (l : list (nat * A)) : option A :=
  match l with [] => None | (w, a) :: l => if Nat.eqb w v then Some a else at_ v l end.
Definition set_handle (v : nat) (h : handle) (m : memory) : memory :=
  Memory (m_counters m) (m_next m) (m_deleted m) ((v, h) :: without v (m_handles m)).
Definition drop_handle (v : nat) (m : memory) : memory :=
  Memory (m_counters m) (m_next m) (m_deleted m) (without v (m_handles m)).

(** addRef, 417-422: ++( *counter_ ), with no question whether there is one. *)
Definition add_ref (h : handle) (m : memory) : outcome memory :=
  match h_counter h with
  | None => UB
  | Some c => match m_counters m c with None => UB | Some n => Val (set_counter c (Some (n + 1)) m) end
  end.
(** delete is_, of a null pointer too. *)
Definition delete_stream (o : option nat) (m : memory) : outcome memory :=
  match o with
  | None => Val m
  | Some s => if existsb (Nat.eqb s) (m_deleted m) then UB
              else Val (Memory (m_counters m) (m_next m) (s :: m_deleted m) (m_handles m))
  end.
(** removeRef, 427-447; the handle is left empty, without a counter. *)
Definition empty_handle : handle := Handle None None false.
Definition remove_ref (h : handle) (m : memory) : outcome memory :=
  match h_counter h with
  | None => Val m
  | Some c =>
      match m_counters m c with
      | None => UB
      | Some n =>
          if n - 1 =? 0
          then obind (if h_owner h then delete_stream (h_stream h) m else Val m)
                 (fun m => Val (set_counter c None m))
          else Val (set_counter c (Some (n - 1)) m)
      end
  end.
(** set, 397-405, and the constructors that make a counter, 278-316: new int(0) and addRef. *)
Definition set_stream (v : nat) (o : option nat) (own : bool) (m : memory) : memory :=
  let c := m_next m in
  set_handle v (Handle o (Some c) own)
    (Memory (fun d => if Nat.eqb d c then Some 1 else m_counters m d) (S c) (m_deleted m) (m_handles m)).

(** What a program does.  A unique_ptr may be null. *)
Inductive op :=
| Make (v : nat)                             (* IStreamHandle(), 278-285 *)
| MakeLent (v s : nat)                       (* IStreamHandle(istream&), 287-295 *)
| MakeGiven (v : nat) (o : option nat)       (* IStreamHandle(unique_ptr), 297-316 *)
| Copy (v w : nat)                           (* v(w), 320-328 *)
| Destroy (v : nat)                          (* ~IStreamHandle, 330-337 *)
| Assign (v w : nat)                         (* v = w, 339-352 *)
| AssignLent (v s : nat)                     (* v = istream&, 380-390; setByteStream *)
| AssignGiven (v : nat) (o : option nat)     (* v = unique_ptr, 354-378 *)
| Release (v : nat)                          (* 407-414 *)
| Read (v : nat).                            (* reading from *get(), 392-395 *)

(** A handle that is not there has not been constructed or has been destroyed. *)
Definition with_handle {A} (v : nat) (m : memory) (k : handle -> outcome A) : outcome A :=
  match at_ v (m_handles m) with Some h => k h | None => UB end.
Definition unmade {A} (v : nat) (m : memory) (k : unit -> outcome A) : outcome A :=
  match at_ v (m_handles m) with Some _ => UB | None => k tt end.
(** removeRef of the handle in a variable. *)
Definition clear (v : nat) (m : memory) : outcome memory :=
  with_handle v m (fun h => obind (remove_ref h m) (fun m => Val (set_handle v empty_handle m))).
Definition quietly (r : outcome memory) : outcome (memory * option nat) := obind r (fun m => Val (m, None)).
Definition step (o : op) (m : memory) : outcome (memory * option nat) :=
  match o with
  | Make v => unmade v m (fun _ => Val (set_stream v None false m, None))
  | MakeLent v s => unmade v m (fun _ => Val (set_stream v (Some s) false m, None))
  | MakeGiven v o => unmade v m (fun _ => Val (set_stream v o true m, None))
  | Copy v w => unmade v m (fun _ => with_handle w m (fun h =>
      quietly (obind (add_ref h m) (fun m => Val (set_handle v h m)))))
  | Destroy v => quietly (obind (clear v m) (fun m => Val (drop_handle v m)))
  | Assign v w =>
      quietly (with_handle w m (fun h =>
        obind (add_ref h m) (fun m => obind (clear v m) (fun m =>
        (** rhs is read again after removeRef: it may be this handle. *)
        with_handle w m (fun h => Val (set_handle v h m))))))
  | AssignLent v s => quietly (obind (clear v m) (fun m => Val (set_stream v (Some s) false m)))
  | AssignGiven v o => quietly (obind (clear v m) (fun m => Val (set_stream v o true m)))
  | Release v => quietly (obind (clear v m) (fun m => Val (set_stream v None false m)))
  | Read v => with_handle v m (fun h =>
      match h_stream h with
      | None => Val (m, None)
      | Some s => if existsb (Nat.eqb s) (m_deleted m) then UB else Val (m, Some s)
      end)
  end.
Fixpoint run (ops : list op) (m : memory) : outcome (memory * list (option nat)) :=
  match ops with
  | [] => Val (m, [])
  | o :: ops => obind (step o m) (fun '(m, a) => obind (run ops m) (fun '(m, l) => Val (m, a :: l)))
  end.
