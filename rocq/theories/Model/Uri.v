(** Model of src/io/uri.cpp. Strings are lists of char values. No proofs here. *)
From Verif.Model Require Import Base Text.

Definition slash : Z := 47.
Definition colon : Z := 58.
Definition s_file : str := [102; 105; 108; 101].
Definition s_http : str := [104; 116; 116; 112].
Definition s_https : str := [104; 116; 116; 112; 115].

(** The members of URI, include/io/uri.hpp:78-82. *)
Record uri := Uri
  { u_scheme : str; u_host : str; u_port : str; u_path : str; u_abs : bool }.

(** wellKnownPort and URI::port, uri.cpp:19-30, 53-58. *)
Definition well_known_port (scheme : str) : str :=
  if str_eqb scheme s_http then [56; 48]
  else if str_eqb scheme s_https then [52; 52; 51]
  else [48].
Definition uri_port (u : uri) : str :=
  match u_port u with [] => well_known_port (u_scheme u) | p => p end.

(** URI::as_string, uri.cpp:60-75. *)
Definition as_string (u : uri) : str :=
  (match u_scheme u with [] => [] | s => s ++ [colon] end)
  ++ (if u_abs u then [slash; slash] else [])
  ++ (match u_host u with
      | [] => []
      | h => h ++ match u_port u with [] => [] | p => colon :: p end
      end)
  ++ u_path u.

(** fixSlashes, uri.cpp:77-81. *)
Definition fix_slashes (s : str) : str := map (fun c => if c =? 92 then slash else c) s.

(** URI::parseAuthority, uri.cpp:129-147: host, port and what is left. *)
Definition parse_authority (u : str) : str * str * str :=
  match find_char slash u with
  | None => (u, [], [])
  | Some n =>
      let auth := firstn n u in
      match find_char colon auth with
      | None => (auth, [], skipn n u)
      | Some k => (firstn k auth, skipn (k + 1) auth, skipn n u)
      end
  end.

(** URI::parse_uri, uri.cpp:92-127.  Reading *u or *(u+1) at the end of the string
    dereferences end(): UB. *)
Definition parse_uri (s : str) : outcome (str * str * str * str) :=
  match find_char colon s with
  | None => Val ([], [], [], fix_slashes s)
  | Some d =>
      if Nat.eqb d 1 then Val (s_file, [], [], fix_slashes s)
      else
        let scheme := firstn d s in
        match skipn (d + 1) s with
        | [] => UB
        | c1 :: r1 =>
            if c1 =? slash then
              match r1 with
              | [] => UB
              | c2 :: r2 =>
                  if c2 =? slash then
                    let '(h, p, rest) := parse_authority r2 in Val (scheme, h, p, rest)
                  else Val (scheme, [], [], c1 :: r1)
              end
            else Val (scheme, [], [], c1 :: r1)
        end
  end.

(** The test of URI::parse, uri.cpp:87-89; path_[i] past the end reads '\0'. *)
Definition absolute_test (scheme host path : str) : bool :=
  (negb (str_eqb scheme []) && negb (str_eqb host []))
  || ((str_eqb scheme s_file && negb (str_eqb path []))
      && ((nth 0 path 0 =? slash) || (nth 1 path 0 =? colon))).

(** URI::URI(const std::string&), uri.cpp:33-37, 83-90. *)
Definition parse (s : str) : outcome uri :=
  obind (parse_uri s) (fun '(sc, h, p, pa) => Val (Uri sc h p pa (absolute_test sc h pa))).

(** basic_string::find(pattern, from), rfind(char, upto) and erase. *)
Fixpoint is_prefix (p s : str) : bool :=
  match p, s with
  | [], _ => true
  | _, [] => false
  | a :: p', b :: s' => (a =? b) && is_prefix p' s'
  end.
Fixpoint scan_sub (pat s : str) (pos : nat) : option nat :=
  if is_prefix pat s then Some pos
  else match s with [] => None | _ :: r => scan_sub pat r (S pos) end.
Definition find_sub (pat s : str) (from : nat) : option nat :=
  if Nat.ltb (length s) from then None else scan_sub pat (skipn from s) from.
Fixpoint rfind_last (x : Z) (s : str) : option nat :=
  match s with
  | [] => None
  | c :: r => match rfind_last x r with
              | Some n => Some (S n)
              | None => if c =? x then Some O else None
              end
  end.
Definition rfind (x : Z) (s : str) (upto : nat) : option nat := rfind_last x (firstn (upto + 1) s).
Definition erase (s : str) (pos count : nat) : str := firstn pos s ++ skipn (pos + count) s.

Definition dotdot_pat : str := [47; 46; 46; 47].
Definition dot_pat : str := [47; 46; 47].

(** The two loops of URI::combinePath, uri.cpp:182-195.  Val None: erase(npos, ..)
    threw std::out_of_range. *)
Fixpoint dotdot_loop (fuel : nat) (path : str) (from : nat) : outcome (option str) :=
  match find_sub dotdot_pat path from with
  | None => Val (Some path)
  | Some dots =>
      match fuel with
      | O => NoFuel
      | S fuel' =>
          match (match dots with O => Some O | S d => rfind slash path d end) with
          | None => Val None
          | Some ps => dotdot_loop fuel' (erase path ps (dots + 3 - ps)) ps
          end
      end
  end.
Fixpoint dot_loop (fuel : nat) (path : str) (from : nat) : outcome str :=
  match find_sub dot_pat path from with
  | None => Val path
  | Some d => match fuel with O => NoFuel | S fuel' => dot_loop fuel' (erase path d 2) d end
  end.

(** URI::combinePath, uri.cpp:174-196.  *(path_.rbegin()) of an empty path: UB.
    from = length - 1 wraps to npos when the path became empty, and then nothing
    is found. *)
Definition combine_path (path rel : str) : outcome (option str) :=
  match rev path with
  | [] => UB
  | l :: _ =>
      let dir := if l =? slash then path
                 else match rfind_last slash path with
                      | Some n => firstn (n + 1) path
                      | None => []
                      end in
      let joined := dir ++ rel in
      obind (match dir with
             | [] => Val (Some joined)
             | _ => dotdot_loop (S (length joined)) joined (length dir - 1)
             end)
            (fun o => match o with
                      | None => Val None
                      | Some p => obind (dot_loop (S (length p)) p O) (fun q => Val (Some q))
                      end)
  end.

(** compatible_schemes, uri.cpp:149-157. *)
Definition compatible_schemes (scheme relative : str) : bool :=
  if str_eqb scheme [] && str_eqb relative s_file then true
  else if str_eqb relative [] then true
  else str_eqb scheme relative.

(** URI::absolutise, uri.cpp:159-172, and URI::URI(base, relative), uri.cpp:39-51. *)
Definition absolutise (base rel : uri) : outcome (option uri) :=
  if u_abs rel || negb (compatible_schemes (u_scheme base) (u_scheme rel)) then Val (Some rel)
  else
    let put p := Uri (u_scheme base) (u_host base) (u_port base) p (u_abs base) in
    if nth 0 (u_path rel) 0 =? slash then Val (Some (put (u_path rel)))
    else obind (combine_path (u_path base) (u_path rel)) (fun o =>
         match o with None => Val None | Some p => Val (Some (put p)) end).
Definition resolve (base : uri) (s : str) : outcome (option uri) :=
  match s with
  | [] => Val (Some base)
  | _ => obind (parse s) (absolutise base)
  end.
