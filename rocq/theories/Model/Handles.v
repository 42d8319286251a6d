(** Reference counted handles: include/DOM/Proxy.hpp over the implementation classes of
    include/DOM/Simple/ and DOM/Traversal/TraversalImpl.hpp.

    Objects are numbers.  Those of a program are there from the start (memory is handed out
    by the factory methods before the first handle refers to it); what the model follows is
    the counts, who deletes whom, and the use of deleted objects, [Dangling].  A count is an
    unbounded integer. *)
From Verif.Model Require Import Base.

Inductive okind :=
  | ODocument   (* DocumentImpl, DocumentImpl.hpp:115-124 *)
  | OShared     (* EventImpl, EventImpl.hpp:114-123; TraversalImpl.hpp:20-29 *)
  | ONode       (* a node or attribute map, NodeImpl.hpp:54-63, NamedNodeMapImpl.hpp:85-94 *)
  | ODocType    (* DocumentTypeImpl.hpp:47-61 *)
  | OTypeMap    (* entities_, notations_ of a document type, DocumentTypeImpl.hpp:70-78 *)
  | OTagList    (* ElementByTagList, ElementByTagImpl.hpp:60-71 *)
  | OStatic.    (* DOMImplementationImpl, DOMImplementation.hpp:36-37 *)
(** ownerDoc_, refCount_, the document type a map is part of, and whether the object has
    been deleted; [o_used] is no member: some handle has referred to it. *)
Record object := Object {
  o_kind : okind; o_owner : option nat; o_host : nat; o_count : Z; o_alive : bool; o_used : bool }.
Record hstate := HState { h_objs : nat -> object; h_vars : list (nat * option nat) }.
Inductive hres := Fine (s : hstate) | Dangling.

Definition put_obj (s : hstate) (i : nat) (f : object -> object) : hstate :=
  HState (fun j => if Nat.eqb j i then f (h_objs s j) else h_objs s j) (h_vars s).
Definition count_by (z : Z) (o : object) : object := Object (o_kind o) (o_owner o) (o_host o) (o_count o + z) (o_alive o) (o_used o).
Definition use (o : object) : object := Object (o_kind o) (o_owner o) (o_host o) (o_count o) (o_alive o) true.
Definition dead (o : object) : object := Object (o_kind o) (o_owner o) (o_host o) (o_count o) false (o_used o).
(** The memory that goes with an object: a document deletes its nodes (see C52), a document
    type holds its maps as members. *)
Definition part_of (s : hstate) (c i : nat) : bool :=
  let o := h_objs s i in
  match o_kind o with
  | ODocument | OShared | OTagList => Nat.eqb i c
  | ONode => match o_owner o with Some d => Nat.eqb d c | None => false end
  | ODocType => match o_owner o with Some d => Nat.eqb d c | None => Nat.eqb i c end
  | OTypeMap => match o_owner (h_objs s (o_host o)) with Some d => Nat.eqb d c | None => Nat.eqb (o_host o) c end
  | OStatic => false
  end.
(** delete this *)
Definition delete (s : hstate) (c : nat) : hstate :=
  HState (fun i => if part_of s c i then dead (h_objs s i) else h_objs s i) (h_vars s).
Definition alive (s : hstate) (i : nat) : bool := o_alive (h_objs s i).
(** ++refCount_ of the object [c]. *)
Definition inc (s : hstate) (c : nat) : hres :=
  if alive s c then Fine (put_obj s c (fun o => use (count_by 1 o))) else Dangling.
(** if(--refCount_ == 0) delete this *)
Definition dec (s : hstate) (c : nat) : hres :=
  if alive s c
  then let s1 := put_obj s c (count_by (-1)) in
       if Z.eqb (o_count (h_objs s1 c)) 0 then Fine (delete s1 c) else Fine s1
  else Dangling.
Definition hbind (r : hres) (f : hstate -> hres) : hres := match r with Fine s => f s | Dangling => Dangling end.
(** The document a map of a document type knows, set with that of the document type
    (DocumentTypeImpl.hpp:115-116). *)
Definition owner_of (s : hstate) (i : nat) : option nat :=
  match o_kind (h_objs s i) with OTypeMap => o_owner (h_objs s (o_host (h_objs s i))) | _ => o_owner (h_objs s i) end.
(** addRef *)
Definition add_ref (s : hstate) (i : nat) : hres :=
  if alive s i then
    match o_kind (h_objs s i) with
    | ODocument | OShared => inc s i
    | ONode | OTypeMap => match owner_of s i with Some d => inc s d | None => Fine s end
    | ODocType => match owner_of s i with Some d => inc s d | None => inc s i end
    | OTagList => hbind (inc s i) (fun s => match owner_of s i with Some d => inc s d | None => Dangling end)
    | OStatic => Fine s
    end
  else Dangling.
(** releaseRef *)
Definition release_ref (s : hstate) (i : nat) : hres :=
  if alive s i then
    match o_kind (h_objs s i) with
    | ODocument | OShared => dec s i
    | ONode | OTypeMap => match owner_of s i with Some d => dec s d | None => Fine s end
    | ODocType => match owner_of s i with Some d => dec s d | None => dec s i end
    | OTagList => hbind (match owner_of s i with Some d => dec s d | None => Dangling end) (fun s => dec s i)
    | OStatic => Fine s
    end
  else Dangling.

(** The variables: [h_vars] has each handle that has been constructed and not destroyed. *)
Definition var (s : hstate) (v : nat) : option nat :=
  match find (fun x => Nat.eqb (fst x) v) (h_vars s) with Some (_, t) => t | None => None end.
Definition declared (s : hstate) (v : nat) : bool := existsb (fun x => Nat.eqb (fst x) v) (h_vars s).
Definition put_var (s : hstate) (v : nat) (t : option nat) : hstate :=
  HState (h_objs s) (map (fun x => if Nat.eqb (fst x) v then (v, t) else x) (h_vars s)).
(** Proxy::setImpl, Proxy.hpp:54-66. *)
Definition set_impl (s : hstate) (v : nat) (impl : option nat) : hres :=
  hbind (match var s v with
         | Some i => hbind (release_ref s i) (fun s => Fine (put_var s v None))
         | None => Fine s
         end)
    (fun s => match impl with
              | Some i => add_ref (put_var s v (Some i)) i
              | None => Fine s
              end).
(** Proxy.hpp:15-29, and setOwnerDoc of a document type, DocumentTypeImpl.hpp:113-120, as
    called by checkCanAdd, NodeImpl.hpp:519-524, when it has no document yet. *)
Inductive hop :=
  | HRaw (v i : nat)        (* Proxy(ImplementationT* ) *)
  | HEmpty (v : nat)        (* Proxy() *)
  | HCopy (v u : nat)       (* Proxy(const Proxy& ) *)
  | HAssign (v u : nat)     (* operator=(const Proxy& ) *)
  | HDestroy (v : nat)      (* ~Proxy() *)
  | HAdopt (t d : nat).
Definition declare (s : hstate) (v : nat) : hstate := HState (h_objs s) ((v, None) :: h_vars s).
Definition own (d : nat) (o : object) : object := Object (o_kind o) (Some d) (o_host o) 4294967295 (o_alive o) (o_used o).
Definition hstep (s : hstate) (o : hop) : hres :=
  match o with
  | HRaw v i => set_impl (declare s v) v (Some i)
  | HEmpty v => Fine (declare s v)
  | HCopy v u => set_impl (declare s v) v (var s u)
  | HAssign v u => set_impl s v (var s u)
  | HDestroy v => hbind (set_impl s v None) (fun s => Fine (HState (h_objs s) (filter (fun x => negb (Nat.eqb (fst x) v)) (h_vars s))))
  | HAdopt t d =>
      if alive s t && alive s d
      then Fine (put_obj (put_obj s d (fun o => Object (o_kind o) (o_owner o) (o_host o) (o_count o + o_count (h_objs s t)) (o_alive o) (o_used o || o_used (h_objs s t)))) t (own d))
      else Dangling
  end.
Fixpoint hrun (s : hstate) (ops : list hop) : hres :=
  match ops with [] => Fine s | o :: r => hbind (hstep s o) (fun s => hrun s r) end.
(** Before any handle. *)
Definition fresh_objs (kinds : nat -> okind) (docs hosts : nat -> nat) : hstate :=
  HState (fun i => Object (kinds i) (match kinds i with ONode | OTagList => Some (docs i) | _ => None end) (hosts i) 0 true false) [].
