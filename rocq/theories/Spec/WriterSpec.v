(** What the SAX writer's output must contain, in terms of the events alone. *)
From Coq Require Import List ZArith Bool.
From Verif.Model Require Import Base Attrs Sax.
From Verif.Spec Require Import TextSpec XmlRead.
Import ListNotations.
Open Scope Z_scope.

(** The name an event shows: the qualified name, or the local one if there is none. *)
Definition event_name (local qname : list Z) : list Z :=
  match qname with [] => local | _ => qname end.
Definition event_attr (a : attr) : list Z * list Z :=
  (event_name (a_local a) (a_qname a), a_value a).
(** xmlns or xmlns:p *)
Definition xmlns_name (p : list Z) : list Z :=
  match p with
  | [] => [120; 109; 108; 110; 115]
  | _ => [120; 109; 108; 110; 115; 58] ++ p
  end.

(** The markup the events stand for: a prefix mapping is an attribute of the next
    element. *)
Fixpoint event_tokens (decls : list (list Z * list Z)) (evs : list sax) : list tok :=
  match evs with
  | [] => []
  | StartPrefix p u :: r => event_tokens (decls ++ [(xmlns_name p, u)]) r
  | StartElement _ l q atts :: r =>
      TStart (event_name l q) (decls ++ map event_attr atts) :: event_tokens [] r
  | EndElement _ l q :: r => TEnd (event_name l q) :: event_tokens decls r
  | Characters s :: r | IgnorableWhitespace s :: r => TText s :: event_tokens decls r
  | PI t d :: r => TPI t d :: event_tokens decls r
  | Comment s :: r => TComment s :: event_tokens decls r
  | _ :: r => event_tokens decls r
  end.

(** Well-nested sequences that XML can express.  [open] are the names of the open
    elements, [cd] is the text of the open CDATA section, [decls] the prefix mappings
    waiting for their element. *)
Fixpoint writable (open : list (list Z)) (cd : option (list Z)) (decls : list (list Z * list Z))
    (evs : list sax) : Prop :=
  match cd, evs with
  | Some t, Characters s :: r => writable open (Some (t ++ s)) decls r
  | Some t, EndCDATA :: r => cdata_ok t /\ writable open None decls r
  | Some _, _ => False
  | None, [] => open = []
  | None, e :: r =>
      match e with
      | StartPrefix p u =>
          is_name (xmlns_name p) /\ writable open None (decls ++ [(xmlns_name p, u)]) r
      | StartElement _ l q atts =>
          let n := event_name l q in
          let a := decls ++ map event_attr atts in
          is_name n /\ Forall is_name (map fst a) /\ NoDup (map fst a)
          /\ writable (n :: open) None [] r
      | EndElement _ l q =>
          match open with
          | n :: o => n = event_name l q /\ writable o None decls r
          | [] => False
          end
      | Characters s => ~ In 13 s /\ writable open None decls r
      | IgnorableWhitespace s =>
          ~ In 13 s /\ forallb white s = true /\ writable open None decls r
      | PI t d => pi_ok t d /\ writable open None decls r
      | Comment s => comment_ok s /\ writable open None decls r
      | StartCDATA => writable open (Some []) decls r
      | StartDocument | SkippedEntity _ | StartDTD _ _ _ | EndDTD | EndCDATA => False
      | _ => writable open None decls r
      end
  end.
Definition writable_document (evs : list sax) : Prop :=
  match evs with
  | StartDocument :: r => writable [] None [] r
  | _ => writable [] None [] evs
  end.

(** A declaration is written for the start of the document, and a line feed after it. *)
Definition k_version : list Z := [118;101;114;115;105;111;110].
Definition k_enc : list Z := [101;110;99;111;100;105;110;103].
Definition declared (enc : list Z) : list (list Z * list Z) :=
  (k_version, [49; 46; 48]) :: match enc with [] => [] | _ => [(k_enc, enc)] end.
Definition declaration (enc : list Z) (evs : list sax) : list (list Z * list Z) :=
  match evs with StartDocument :: _ => declared enc | _ => [] end.
Definition document_tokens (evs : list sax) : list tok :=
  match evs with
  | StartDocument :: r => TText [10] :: event_tokens [] r
  | _ => event_tokens [] evs
  end.
