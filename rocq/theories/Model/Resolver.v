(** Where the bytes of a document come from: src/SAX/helpers/InputSourceResolver.cpp and
    include/SAX/helpers/InputSourceResolver.hpp.

    The files are a function from names to contents, None if a file of that name cannot be opened;
    resolvers are functions of the system identifier, None being a null pointer. *)
From Verif.Model Require Import Base Text Uri.

Section Resolver.
  (** Streams that registered resolvers make. *)
  Context {T : Type}.
  Inductive stream := Lent | File (name contents : str) | Made (t : T).
  Definition resolver := str -> outcome (option stream).
  Definition files := str -> option str.

  (** std::string::c_str as the name of a file: up to the first null. *)
  Fixpoint c_str (s : str) : str :=
    match s with
    | [] => []
    | c :: r => if c =? 0 then [] else c :: c_str r
    end.
  (** new std::ifstream and is_open. *)
  Definition open_file (fs : files) (name : str) : option stream :=
    match fs (c_str name) with Some t => Some (File (c_str name) t) | None => None end.
  (** fileResolver, InputSourceResolver.cpp:78-106; name[2] beyond the null that ends the
      string is undefined. *)
  Definition file_resolver (fs : files) : resolver := fun s =>
    obind (parse s) (fun u =>
    let name := u_path u in
    match open_file fs name with
    | Some t => Val (Some t)
    | None =>
        let name := map (fun c => if c =? slash then 92 else c) name in
        match name with
        | c :: r =>
            if c =? 92 then
              match r with
              | [] => UB
              | _ => Val (open_file fs (if nth 2 name 0 =? colon then r else name))
              end
            else Val (open_file fs name)
        | [] => Val (open_file fs [])
        end
    end).

  (** resolverMap, 54-73: the resolver for a scheme; [register] replaces one. *)
  Definition registry := list (str * resolver).
  Definition unregister (m : str) (r : registry) : registry := filter (fun p => negb (str_eqb (fst p) m)) r.
  Definition register (m : str) (f : resolver) (r : registry) : registry := (m, f) :: unregister m r.
  Definition find_resolver (r : registry) (m : str) : option resolver :=
    option_map snd (find (fun p => str_eqb (fst p) m) r).
  Inductive change := Register (m : str) (f : resolver) | Unregister (m : str).
  Definition apply_change (r : registry) (c : change) : registry :=
    match c with Register m f => register m f r | Unregister m => unregister m r end.
  Definition changed (l : list change) (r : registry) : registry := fold_left apply_change l r.

  (** InputSourceResolver::open, 17-46: byteStream_, which is null or a stream, and deleteStream_. *)
  Definition open (fs : files) (r : registry) (given : bool) (s : str) : outcome (option stream * bool) :=
    if given then Val (Some Lent, false)
    else
      obind (parse s) (fun u =>
      let last := match open_file fs (u_path u) with Some t => Val (Some t, true) | None => Val (None, false) end in
      if str_eqb (u_scheme u) [] then last
      else match find_resolver r (u_scheme u) with
           | None => last
           | Some f => obind (f s) (fun o => match o with Some t => Val (Some t, true) | None => last end)
           end).
  (** ~InputSourceResolver, 48-52: what it deletes. *)
  Definition deleted (o : option stream * bool) : option stream := if snd o then fst o else None.
End Resolver.
