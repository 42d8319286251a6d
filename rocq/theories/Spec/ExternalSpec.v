(** What SAX says about entities: the handlers are told the name of each external entity before
    and after its text, or that it was skipped. *)
From Verif.Model Require Import Base Attrs Sax External.

(** A document type declares entities and notations; a text has characters and references. *)
Inductive declaration :=
  | External (name : str) (pub : option str) (sys : str)
  | Internal (name value : str)
  | Unparsed (name : str) (pub : option str) (sys notation : str)
  | ANotation (name : str) (pub sys : option str).
Inductive piece := Letters (s : str) | Refer (name : str).
Definition ids (o : option str) : str := match o with Some s => s | None => [] end.
Definition declares (d : declaration) : sax :=
  match d with
  | External n p s => ExternalEntityDecl n (ids p) s
  | Internal n v => InternalEntityDecl n v
  | Unparsed n p s k => UnparsedEntityDecl n (ids p) s k
  | ANotation n p s => NotationDecl n (ids p) (ids s)
  end.
(** What is told about a text: with external entities, given the text of each, *)
Inductive tells (body : str -> list piece) : list piece -> list sax -> Prop :=
  | T_end : tells body [] []
  | T_letters : forall s l e, tells body l e -> tells body (Letters s :: l) (Characters s :: e)
  | T_refer : forall n l i e, tells body (body n) i -> tells body l e -> tells body (Refer n :: l) (StartEntity n :: i ++ EndEntity n :: e).
(** without them, *)
Definition skips (l : list piece) : list sax := map (fun p => match p with Letters s => Characters s | Refer n => SkippedEntity n end) l.
(** and the text alone. *)
Inductive expands (body : str -> list piece) : list piece -> str -> Prop :=
  | E_end : expands body [] []
  | E_letters : forall s l t, expands body l t -> expands body (Letters s :: l) (s ++ t)
  | E_refer : forall n l i t, expands body (body n) i -> expands body l t -> expands body (Refer n :: l) (i ++ t).

(** How expat calls back for them. *)
Definition declared_as (d : declaration) : callback :=
  match d with
  | External n p s => XEntity n false None (Some s) p None
  | Internal n v => XEntity n false (Some v) None None None
  | Unparsed n p s k => XEntity n false None (Some s) p (Some k)
  | ANotation n p s => XNotation n s p
  end.
Fixpoint places (n : str) (l : list declaration) : option (option str * str) :=
  match l with
  | [] => None
  | External n' p s :: l => if str_eqb n n' then Some (p, s) else places n l
  | _ :: l => places n l
  end.
Definition called (l : list declaration) (p : piece) : callback :=
  match p with
  | Letters s => XText s
  | Refer n => match places n l with Some (p, s) => XExternal (Some s) p | None => XSkipped n end
  end.
(** The external entities of a document have names of their own, places of their own, and no
    public identifier that is the place of one. *)
Definition own_places (l : list declaration) : Prop :=
  forall n p s, In (External n p s) l -> n <> [] /\ s <> [] /\
    forall n' p' s', In (External n' p' s') l -> (n = n' \/ s = s' -> n = n' /\ p = p' /\ s = s') /\ p' <> Some s.
(** References are to declared entities. *)
Definition all_declared (l : list declaration) (t : list piece) : Prop :=
  forall n, In (Refer n) t -> exists p s, In (External n p s) l.
(** Where the resolver, if any, says that an entity is: nowhere, with both identifiers empty, is
    where the document says. *)
Definition is_at (h : settings) (pub sys : str) (place : str * str) : Prop :=
  match s_resolver h with
  | None => place = (pub, sys)
  | Some f => f pub sys = ([], []) /\ place = (pub, sys) \/ f pub sys <> ([], []) /\ place = f pub sys
  end.
(** At the place of each entity is its text. *)
Definition has_text (h : settings) (text : str -> str -> option (list callback * bool)) (l : list declaration) (body : str -> list piece) : Prop :=
  forall n p s place, In (External n p s) l -> is_at h (ids p) s place ->
    text (fst place) (snd place) = Some (map (called l) (body n), true) /\ all_declared l (body n).
Definition all_told (h : settings) : Prop := s_content h = true /\ s_lexical h = true /\ s_decl h = true /\ s_dtd h = true.
(** Beginnings and ends of entities match. *)
Inductive matched : list news -> Prop :=
  | M_end : matched []
  | M_other : forall e l, (forall n, e <> Heard (StartEntity n) /\ e <> Heard (EndEntity n)) -> matched l -> matched (e :: l)
  | M_entity : forall n i l, matched i -> matched l -> matched (Heard (StartEntity n) :: i ++ Heard (EndEntity n) :: l).
Fixpoint letters (l : list news) : str :=
  match l with [] => [] | Heard (Characters s) :: l => s ++ letters l | _ :: l => letters l end.
