(** Exceptions of a parse and the handler that keeps their texts: include/SAX/SAXException.hpp,
    SAXParseException.hpp and helpers/CatchErrorHandler.hpp. *)
From Coq Require Import String.
From Verif.Model Require Import Base XSort.
From Coq Require Import List ZArith. Import ListNotations. Open Scope Z_scope.

(** what() is a C string: it ends at the first NUL. *)
Fixpoint c_string (s : str) : str :=
  match s with
  | [] => []
  | c :: r => if c =? 0 then [] else c :: c_string r
  end.
(** Insertion of a size_t into a stream, which has 64 bits. *)
Definition size_bits : Z := 2 ^ 64.
Fixpoint decimal_digits (fuel : nat) (n : Z) : str :=
  match fuel with
  | O => []
  | S fuel => (if n / 10 =? 0 then [] else decimal_digits fuel (n / 10)) ++ [48 + n mod 10]
  end.
Definition decimal (n : Z) : str := decimal_digits 64 n.

(** SAXParseException, 37-166.  [e_base] is the message of the std::runtime_error, and [e_msg]
    is msg_. *)
Record parse_exception := PException { e_base : str; e_msg : str; e_public : str; e_system : str; e_line : Z; e_column : Z }.
(** setMsg, 148-154. *)
Definition message_text (base : str) (line column : Z) : str :=
  ascii_str "Parse exception at " ++ decimal line ++ [44] ++ decimal column ++ [10] ++ c_string base.
(** The constructors, 44-77, that of a message alone with no position, and that of a locator with
    the locator's; -1 as a size_t is the largest. *)
Definition make_exception (message public system : str) (line column : Z) : parse_exception :=
  let l := line mod size_bits in
  let c := column mod size_bits in
  PException message (message_text message l c) public system l c.
Definition make_plain (message : str) : parse_exception := make_exception message [] [] (-1) (-1).
(** what, 139-142. *)
Definition what (e : parse_exception) : str := c_string (e_msg e).
(** The copy constructor, 79-87; that of SAXException, SAXException.hpp:33-36, asks the copied
    exception for what(), which is virtual. *)
Definition copy_exception (e : parse_exception) : parse_exception :=
  PException (what e) (e_msg e) (e_public e) (e_system e) (e_line e) (e_column e).
(** operator=, 89-100; that of SAXException, SAXException.hpp:40-44, assigns nothing. *)
Definition assign_exception (a e : parse_exception) : parse_exception :=
  PException (e_base a) (e_msg e) (e_public e) (e_system e) (e_line e) (e_column e).

(** Variables of the program with exceptions. *)
Inductive exception_step :=
  | Made (v : nat) (message public system : str) (line column : Z)
  | Copied (v from : nat)
  | Assigned (v from : nat).
Definition exceptions : Type := nat -> parse_exception.
Definition exception_at (s : exceptions) (v : nat) (e : parse_exception) : exceptions := fun w => if Nat.eqb w v then e else s w.
Definition exception_run1 (s : exceptions) (o : exception_step) : exceptions :=
  match o with
  | Made v m p y l c => exception_at s v (make_exception m p y l c)
  | Copied v w => exception_at s v (copy_exception (s w))
  | Assigned v w => exception_at s v (assign_exception (s v) (s w))
  end.
Definition exception_run (s : exceptions) (l : list exception_step) : exceptions := fold_left exception_run1 l s.

(** CatchErrorHandler, 14-54: errors_, and hold, 42-51, which makes a copy. *)
Inductive catch_call := Warning (e : parse_exception) | Error (e : parse_exception) | FatalError (e : parse_exception) | Forget.
Definition hold (errors : str) (e : parse_exception) : str := errors ++ what (copy_exception e).
Definition catch1 (errors : str) (c : catch_call) : str :=
  match c with
  | Warning e | Error e | FatalError e => hold errors e
  | Forget => []
  end.
Definition catch (l : list catch_call) : str := fold_left catch1 l [].
(** errorsReported, 38. *)
Definition errors_reported (errors : str) : bool := match errors with [] => false | _ => true end.
