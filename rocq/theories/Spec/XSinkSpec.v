(** What a reader must find in the text of a result. *)
From Coq Require Import String.
From Verif.Model Require Import Base Attrs XSort XOutput.
From Verif.Spec Require Import TextSpec XmlRead.
From Verif.Spec Require XOutputSpec.
From Coq Require Import List Bool.
Import ListNotations.
Open Scope Z_scope.

(** * Reading *)
(** A document type declaration without an internal subset: the name of the root element, the
    public identifier and the system identifier (XML 1.0, 2.8). *)
Definition doctype := (str * option str * str)%type.
Definition read_literal (r : str) : option (str * str) :=
  match r with q :: r' => if (q =? 34) || (q =? 39) then until [q] r' else None | [] => None end.
Definition some_white (r : str) : bool := match r with c :: _ => white c | [] => false end.
Definition read_external (r : str) : option (option str * str * str) :=
  match starts (ascii_str "SYSTEM") r, starts (ascii_str "PUBLIC") r with
  | Some r1, _ => if some_white r1 then match read_literal (skip_white r1) with Some (s, r2) => Some (None, s, r2) | None => None end else None
  | None, Some r1 =>
      if some_white r1 then
        match read_literal (skip_white r1) with
        | Some (p, r2) => if some_white r2 then match read_literal (skip_white r2) with Some (s, r3) => Some (Some p, s, r3) | None => None end else None
        | None => None
        end
      else None
  | None, None => None
  end.
Definition read_doctype (r : str) : option (option doctype * str) :=
  match starts (ascii_str "<!DOCTYPE") (skip_white r) with
  | None => Some (None, r)
  | Some r1 =>
      if some_white r1 then
        match read_name (skip_white r1) with
        | Some (n, r2) =>
            if some_white r2 then
              match read_external (skip_white r2) with
              | Some (p, s, r3) => match skip_white r3 with 62 :: r4 => Some (Some (n, p, s), r4) | _ => None end
              | None => None
              end
            else None
        | None => None
        end
      else None
  end.
(** A text: its declaration, its document type, its content. *)
Definition read_document (s : str) : option (list (str * str) * option doctype * list tok) :=
  match read_decl (eol s) with
  | None => None
  | Some (d, r) => match read_doctype r with
                   | None => None
                   | Some (t, r) => match read_content_text r with Some l => Some (d, t, l) | None => None end
                   end
  end.

(** * What is to be found *)
Definition value (name : string) (s : list (str * str)) : str :=
  match find (fun x => str_eqb (fst x) (ascii_str name)) s with Some x => snd x | None => [] end.
Definition omits (s : list (str * str)) : bool := str_eqb (value "omit-xml-declaration" s) (ascii_str "yes").
Definition writes (e : event) : bool := match e with Escaping _ => false | _ => true end.
(** The declaration, which comes with the first node. *)
Definition expected_decl (s : list (str * str)) (evs : list event) : list (str * str) :=
  if omits s || negb (existsb writes evs) then []
  else (ascii_str "version", match value "version" s with [] => ascii_str "1.0" | v => v end)
       :: match value "standalone" s with [] => [] | v => [(ascii_str "standalone", v)] end.
(** The document type, if the first node is an element. *)
Definition expected_doctype (s : list (str * str)) (evs : list event) : option doctype :=
  if omits s then None
  else match find writes evs, value "doctype-system" s with
       | Some (Start q _ _), (_ :: _) as sys => Some (q, match value "doctype-public" s with [] => None | p => Some p end, sys)
       | _, _ => None
       end.
Definition drop_white (s : str) : str := skip_white s.
Definition event_tok (e : event) : list tok :=
  match e with
  | Start q _ atts => [TStart q (map (fun a => (a_qname a, a_value a)) atts)]
  | End_ q _ => [TEnd q]
  | Chars s => [TText s]
  | Comment s => [TComment s]
  | Pi t d => [TPI t (drop_white d)]
  | StartCdata | EndCdata | Escaping _ => []
  end.
(** The content; a line feed follows the declaration. *)
Definition expected_toks (s : list (str * str)) (evs : list event) : list tok :=
  (if omits s || negb (existsb writes evs) then [] else [TText [10]]) ++ flat_map event_tok evs.

(** * What can be written *)
(** Settings: a version and a value of standalone that need no escaping, identifiers that can
    stand between quotes. *)
Definition settings_ok (s : list (str * str)) : Prop :=
  (value "version" s = [] \/ is_name (value "version" s)) /\ (value "standalone" s = [] \/ is_name (value "standalone" s)) /\
  ~ In 34 (value "doctype-public" s) /\ ~ In 13 (value "doctype-public" s) /\
  ~ In 34 (value "doctype-system" s) /\ ~ In 13 (value "doctype-system" s).
(** Calls that are nested, with names and without carriage returns.  [open] are the names of the
    open elements; [cd] is the end of the text of the open CDATA section, from the last place
    where it has been divided. *)
Definition cdata_sep : str := [93; 93; 62].
Fixpoint writable (open : list str) (cd : option str) (evs : list event) : Prop :=
  match cd, evs with
  | Some t, Chars s :: r =>
      ~ In 13 s /\
      ((~ contains cdata_sep (t ++ s) /\ writable open (Some (t ++ s)) r) \/
       (exists a b, s = a ++ cdata_sep ++ b /\ ~ contains cdata_sep (t ++ a ++ [93; 93]) /\ ~ contains cdata_sep b /\ writable open (Some (62 :: b)) r))
  | Some t, EndCdata :: r => writable open None r
  | Some _, _ => False
  | None, [] => open = []
  | None, e :: r =>
      match e with
      | Start q _ atts => is_name q /\ Forall is_name (map a_qname atts) /\ NoDup (map a_qname atts) /\ writable (q :: open) None r
      | End_ q _ => match open with n :: o => n = q /\ writable o None r | [] => False end
      | Chars s => ~ In 13 s /\ writable open None r
      | StartCdata => writable open (Some []) r
      | EndCdata => False
      | Comment s => XmlRead.comment_ok s /\ writable open None r
      | Pi t d => is_name t /\ reserved t = false /\ ~ In 13 d /\ ~ contains [63; 62] d /\ writable open None r
      | Escaping b => b = false /\ writable open None r
      end
  end.
