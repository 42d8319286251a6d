(** What the result of a transformation is to be. *)
From Coq Require Import String.
From Verif.Model Require Import Base Attrs Text XSort XOutput.
From Coq Require Import List.
Import ListNotations.
Open Scope Z_scope.

(** * Texts *)
(** [t] is somewhere in [s]. *)
Definition occurs (t s : str) : Prop := exists a b, s = a ++ t ++ b.
(** [r] is [s] with spaces put in. *)
Inductive spaced : str -> str -> Prop :=
| SpacedNil : spaced [] []
| SpacedSame : forall c s r, spaced s r -> spaced (c :: s) (c :: r)
| SpacedMore : forall s r, spaced s r -> spaced s (32 :: r).
Definition last_is (c : Z) (s : str) : Prop := exists a, s = a ++ [c].
(** What can stand in a comment and in a processing instruction (XML 1.0, 2.5 and 2.6). *)
Definition comment_ok (s : str) : Prop := ~ occurs (ascii_str "--") s /\ ~ last_is 45 s.
Definition pi_ok (s : str) : Prop := ~ occurs (ascii_str "?>") s.

(** * Nesting *)
(** The open elements and whether a CDATA section is open, after an event; none if the event
    cannot come there. *)
Definition follow (st : option (list (str * str) * bool)) (e : event) : option (list (str * str) * bool) :=
  match st with
  | None => None
  | Some (open, true) => match e with Chars _ | Escaping _ => Some (open, true) | EndCdata => Some (open, false) | _ => None end
  | Some (open, false) =>
      match e with
      | Start q u _ => Some ((q, u) :: open, false)
      | End_ q u => match open with (q', u') :: open => if str_eqb q q' && str_eqb u u' then Some (open, false) else None | [] => None end
      | StartCdata => Some (open, true)
      | EndCdata => None
      | Chars _ | Comment _ | Pi _ _ | Escaping _ => Some (open, false)
      end
  end.
Definition balanced (l : list event) : Prop := fold_left follow l (Some ([], false)) = Some ([], false).

(** * Content *)
(** The texts that are directly in a body. *)
Definition direct_text (body : list instruction) : str := concat (map (fun i => match i with IText _ ch => ch | _ => [] end) body).
(** The nodes that instructions make, with the start and the end of each element. *)
Inductive piece := PStart (local uri : str) | PEnd (local uri : str) | PText (s : str) | PComment (s : str) | PPi (target data : str).
Fixpoint denote (i : instruction) : list piece :=
  match i with
  | IElement _ l u body => PStart l u :: flat_map denote body ++ [PEnd l u]
  | IAttribute _ _ _ _ | ICopyAttribute _ _ _ _ => []
  | IText _ ch => [PText ch]
  | IComment body => [PComment (direct_text body)]
  | IPi t body => [PPi t (direct_text body)]
  end.
(** An event that gives a node to the reader of the result, whatever prefix it has. *)
Inductive shows : piece -> event -> Prop :=
| ShowsStart : forall l u p atts, shows (PStart l u) (Start (make_name p l) u atts)
| ShowsEnd : forall l u p, shows (PEnd l u) (End_ (make_name p l) u)
| ShowsText : forall s, shows (PText s) (Chars s)
| ShowsComment : forall s r, spaced s r -> comment_ok r -> shows (PComment s) (Comment r)
| ShowsPi : forall t s r, spaced s r -> pi_ok r -> shows (PPi t s) (Pi t r).
Definition is_content (e : event) : bool := match e with StartCdata | EndCdata | Escaping _ => false | _ => true end.
(** With the text method only the texts are left. *)
Fixpoint string_value (i : instruction) : str :=
  match i with
  | IElement _ _ _ body => concat (map string_value body)
  | IText _ ch => ch
  | _ => []
  end.

(** * Namespaces *)
Definition prefix_of (q : str) : str := match Text.find_char 58 q with Some i => firstn i q | None => [] end.
(** The prefix that an attribute declares. *)
Definition declares (a : attr) : option str :=
  if str_eqb (a_qname a) (ascii_str "xmlns") then Some [] else if str_eqb (prefix_of (a_qname a)) (ascii_str "xmlns") then Some (skipn 6 (a_qname a)) else None.
Definition declared (atts : list attr) : list (str * str) := flat_map (fun a => match declares a with Some p => [(p, a_value a)] | None => [] end) atts.
(** What a prefix stands for, the innermost element first. *)
Fixpoint bound (scopes : list (list (str * str))) (p : str) : str :=
  match scopes with
  | [] => []
  | s :: scopes => match find (fun pu => str_eqb (fst pu) p) s with Some pu => snd pu | None => bound scopes p end
  end.
(** In the scopes of an element: its name and those of its attributes stand for what they are
    to stand for, and no two attributes have the same name. *)
Definition names_ok (scopes : list (list (str * str))) (q u : str) (atts : list attr) : Prop :=
  bound scopes (prefix_of q) = u /\
  (forall a, In a atts -> declares a = None -> a_uri a = match prefix_of (a_qname a) with [] => [] | p => bound scopes p end) /\
  NoDup (map a_qname atts).
Fixpoint all_names_ok (scopes : list (list (str * str))) (l : list event) : Prop :=
  match l with
  | [] => True
  | Start q u atts :: l => names_ok (declared atts :: scopes) q u atts /\ all_names_ok (declared atts :: scopes) l
  | End_ _ _ :: l => all_names_ok (tl scopes) l
  | _ :: l => all_names_ok scopes l
  end.

(** The elements that are started, with their attributes: for each element the local name, the
    namespace, and for each attribute its namespace, local name and value. *)
Definition started := (str * str * list (str * str * str))%type.
Definition local_of (q : str) : str := match Text.find_char 58 q with Some i => skipn (S i) q | None => q end.
Definition plain_atts (atts : list attr) : list (str * str * str) :=
  map (fun a => (a_uri a, a_local a, a_value a)) (filter (fun a => match declares a with None => true | Some _ => false end) atts).
Definition started_by (e : event) : list started := match e with Start q u atts => [(local_of q, u, plain_atts atts)] | _ => [] end.
(** What instructions ask for: an attribute can be made before the children of the element, and
    a later one replaces the value of an earlier one with the same name (XSLT 1.0, 7.1.3). *)
Fixpoint put (u l v : str) (acc : list (str * str * str)) : list (str * str * str) :=
  match acc with
  | [] => [(u, l, v)]
  | (u', l', v') :: acc => if str_eqb u' u && str_eqb l' l then (u', l', v) :: acc else (u', l', v') :: put u l v acc
  end.
Fixpoint leading (body : list instruction) (acc : list (str * str * str)) : list (str * str * str) :=
  match body with
  | IAttribute _ l u b :: body => leading body (put u l (direct_text b) acc)
  | _ => acc
  end.
Fixpoint starts (i : instruction) : list started :=
  match i with
  | IElement _ l u body => (l, u, leading body []) :: flat_map starts body
  | _ => []
  end.

(** Instructions that give each prefix one meaning, [r], put nothing without a namespace below a
    default namespace, and copy no attributes. *)
Definition plain_name (s : str) : Prop := ~ In 58 s.
Definition own_prefix (p : str) : Prop := plain_name p /\ p <> ascii_str "xml" /\ p <> ascii_str "xmlns" /\ forall k, p <> auto_ns k.
Fixpoint consistent (r : str -> str) (i : instruction) : Prop :=
  match i with
  | IElement p l u body => plain_name l /\ (u <> [] -> own_prefix p /\ r p = u) /\ (u = [] -> r [] = []) /\ fold_right (fun i b => consistent r i /\ b) True body
  | IAttribute p l u body => plain_name l /\ (u <> [] -> p = [] \/ (own_prefix p /\ r p = u)) /\ (u = [] -> l <> ascii_str "xmlns") /\ fold_right (fun i b => consistent r i /\ b) True body
  | ICopyAttribute _ _ _ _ => False
  | IText _ _ => True
  | IComment body | IPi _ body => fold_right (fun i b => consistent r i /\ b) True body
  end.
