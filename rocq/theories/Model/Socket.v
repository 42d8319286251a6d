(** Sockets as streams: include/io/socket_stream.hpp, for char; and what
    src/SAX/helpers/InputSourceResolver.cpp asks and skips to fetch a document by HTTP.

    Connecting is left out: the model begins with a socket that has been opened.  The
    system is given by what its calls answer. *)
From Verif.Model Require Import Base ConvertIo.

(** * Reading *)

(** What recv answers: some bytes, or SOCKET_ERROR.  0, that the other side has closed,
    is answered once there are no more arrivals. *)
Inductive arrival := Bytes (l : str) | Error.

(** inBuffer_, the get area, whether sock_ is not INVALID_SOCKET, and what is to come. *)
Record listener := Listener { l_area : list Z; l_marks : marks; l_open : bool; l_coming : list arrival }.
Definition listen (l : list arrival) : listener := Listener [] Null true l.
(** close, 202-214; closeSocket is taken to succeed. *)
Definition hang_up (l : listener) (area : list Z) (coming : list arrival) : listener := Listener area Null false coming.
(** readSocket, 313-356: the buffer is 1028 chars from the start (growInBuffer, 304-310) and
    is never grown again.  recv does not answer more than the room it is given. *)
Definition read_socket (l : listener) : outcome (listener * nat) :=
  let m0 := match l_area l with [] => repeat 0 (block + spare) | m => m end in
  let '(e, g) := match l_marks l with At e g _ => (e, g) | _ => (O, O) end in
  let pb := Nat.min (g - e) spare in
  obind (memcpy m0 (Z.of_nat (spare - pb)) (Z.of_nat g - Z.of_nat pb) pb) (fun m1 =>
  match l_coming l with
  | [] => Val (hang_up l m1 [], O)
  | Error :: r => Val (hang_up l m1 r, O)
  | Bytes [] :: r => Val (hang_up l m1 r, O)
  | Bytes b :: r =>
      let got := firstn (length m1 - spare) b in
      let left := skipn (length m1 - spare) b in
      Val (Listener (write_at m1 spare got) (At (spare - pb) spare (spare + length got)) true
             (match left with [] => r | _ => Bytes left :: r end), length got)
  end).
Definition here (l : listener) : outcome Z :=
  match l_marks l with
  | At _ g _ => match nth_error (l_area l) g with Some c => Val c | None => UB end
  | _ => UB
  end.
Definition set_marks (l : listener) (k : marks) : listener := Listener (l_area l) k (l_open l) (l_coming l).
(** underflow, 237-250, after sgetc has looked at the get area itself. *)
Definition hear (l : listener) : outcome (listener * option Z) :=
  match l_marks l with
  | At _ g x =>
      if Nat.ltb g x then obind (here l) (fun c => Val (l, Some c))
      else if l_open l then
        obind (read_socket l) (fun '(l', n) =>
        if Nat.eqb n 0 then Val (l', None) else obind (here l') (fun c => Val (l', Some c)))
      else Val (l, None)
  | _ =>
      if l_open l then
        obind (read_socket l) (fun '(l', n) =>
        if Nat.eqb n 0 then Val (l', None) else obind (here l') (fun c => Val (l', Some c)))
      else Val (l, None)
  end.
(** sbumpc. *)
Definition next_char (l : listener) : outcome (listener * option Z) :=
  obind (hear l) (fun '(l', a) =>
  match a, l_marks l' with
  | Some c, At e g x => Val (set_marks l' (At e (g + 1) x), Some c)
  | _, _ => Val (l', a)
  end).
(** pbackfail, 252-263, and sungetc and sputbackc, which only step back by themselves where it
    would. *)
Definition step_back (c : option Z) (l : listener) : outcome (listener * option Z) :=
  match l_marks l with
  | At e g x =>
      if Nat.eqb g e then Val (l, None)
      else
        let m := match c with None => l_area l | Some ch => write_at (l_area l) (g - 1) [ch] end in
        let l' := Listener m (At e (g - 1) x) (l_open l) (l_coming l) in
        obind (here l') (fun ch => Val (l', Some ch))
  | _ => Val (l, None)
  end.
Definition listen_step (op : reading) (l : listener) : outcome (listener * option Z) :=
  match op with
  | Get => next_char l
  | Peek => hear l
  | Unget => step_back None l
  | Putback c => step_back (Some c) l
  end.
Fixpoint listen_run (ops : list reading) (l : listener) : outcome (listener * list (option Z)) :=
  match ops with
  | [] => Val (l, [])
  | op :: ops => obind (listen_step op l) (fun '(l, a) =>
                 obind (listen_run ops l) (fun '(l, r) => Val (l, a :: r)))
  end.

(** * Writing *)

(** What send answers: how many bytes it took, or SOCKET_ERROR; once the list is used up, all
    of them. *)
Inductive taken := Took (n : nat) | Refused.
(** outBuffer_, pptr() as a place in it, sock_, what the other side has been sent, and what send
    is going to answer.  epptr() is the end of the buffer. *)
Record speaker := Speaker { s_area : list Z; s_place : nat; s_open : bool; s_sent : str; s_answers : list taken }.
Definition speak (answers : list taken) : speaker := Speaker [] 0 true [] answers.
(** growOutBuffer, 266-275. *)
Definition enlarge (m : list Z) : list Z :=
  m ++ repeat 0 (if Nat.eqb (length m) 0 then block else length m).
(** sputc, and overflow, 216-228: whether the character was taken. *)
Definition say (c : Z) (s : speaker) : speaker * bool :=
  if Nat.ltb (s_place s) (length (s_area s))
  then (Speaker (write_at (s_area s) (s_place s) [c]) (s_place s + 1) (s_open s) (s_sent s) (s_answers s), true)
  else if negb (s_open s) then (s, false)
  else
    let old := length (s_area s) in
    (Speaker (write_at (enlarge (s_area s)) old [c]) (old + 1) (s_open s) (s_sent s) (s_answers s), true).
(** writeSocket, 277-293: whatever number of bytes send took, the buffer is empty afterwards.
    The address of the first element of an empty vector is undefined. *)
Definition send_all (s : speaker) : outcome (speaker * bool) :=
  match s_area s with
  | [] => UB
  | m =>
      let text := firstn (s_place s) m in
      match text with
      | [] => Val (s, true)
      | _ =>
          if negb (s_open s) then Val (s, false)
          else match s_answers s with
               | Refused :: r => Val (Speaker m (s_place s) true (s_sent s) r, false)
               | Took n :: r => Val (Speaker m 0 true (s_sent s ++ firstn n text) r, true)
               | [] => Val (Speaker m 0 true (s_sent s ++ text) [], true)
               end
      end
  end.
Inductive speaking := Say (c : Z) | Sync | Close.
(** close, 202-214. *)
Definition speak_step (op : speaking) (s : speaker) : outcome (speaker * bool) :=
  match op with
  | Say c => Val (say c s)
  | Sync => send_all s
  | Close => Val (Speaker (s_area s) (s_place s) false (s_sent s) (s_answers s), s_open s)
  end.
Fixpoint speak_run (ops : list speaking) (s : speaker) : outcome (speaker * list bool) :=
  match ops with
  | [] => Val (s, [])
  | op :: ops => obind (speak_step op s) (fun '(s, a) =>
                 obind (speak_run ops s) (fun '(s, r) => Val (s, a :: r)))
  end.
(** ~basic_socketbuf, 136-144. *)
Definition finish (s : speaker) : outcome str :=
  if s_open s then obind (send_all s) (fun '(s, _) => Val (s_sent s)) else Val (s_sent s).
Definition all_said (answers : list taken) (ops : list speaking) : outcome (str * list bool) :=
  obind (speak_run ops (speak answers)) (fun '(s, l) => obind (finish s) (fun t => Val (t, l))).

(** * HTTP *)

(** istream::getline(buffer, 1024): the line without its end and the rest; None: it fails,
    leaving an empty buffer or a buffer with the first 1023 characters. *)
Fixpoint line (room : nat) (text : str) : option (str * str) :=
  match text with
  | [] => None
  | c :: r => if c =? 10 then Some ([], r)
              else match room with
                   | O => None
                   | S room => match r with
                               | [] => Some ([c], [])
                               | _ => match line room r with Some (l, rest) => Some (c :: l, rest) | None => None end
                               end
                   end
  end.
(** The do loop of httpResolver, InputSourceResolver.cpp:134-139: what is left for the parser.
    A stream that has failed gives empty lines for ever. *)
Fixpoint skip_headers (fuel : nat) (text : str) : outcome str :=
  match fuel with
  | O => NoFuel
  | S fuel => match line 1023 text with
              | None => (* getline fails; so does every later one *)
                  if match text with c :: _ => c =? 13 | [] => false end then Val [] else skip_headers fuel []
              | Some (l, rest) => if match l with c :: _ => c =? 13 | [] => false end then Val rest else skip_headers fuel rest
              end
  end.
