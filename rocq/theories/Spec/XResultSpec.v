(** The tree that instructions make, as a reader of the text must find it. *)
From Coq Require Import String.
From Verif.Model Require Import Base Attrs XSort XOutput.
From Verif.Spec Require Import XmlRead XOutputSpec XSinkSpec.
From Verif.Spec Require NsTree.
From Coq Require Import List Bool.
Import ListNotations.
Open Scope Z_scope.

(** The nodes, with names expanded, in document order. *)
Fixpoint result_tokens (i : instruction) : list NsTree.ntok :=
  match i with
  | IElement _ l u body => NsTree.NStart u l (leading body []) :: flat_map result_tokens body ++ [NsTree.NEnd u l]
  | IAttribute _ _ _ _ | ICopyAttribute _ _ _ _ => []
  | IText _ ch => [NsTree.NText ch]
  | IComment body => [NsTree.NComment (direct_text body)]
  | IPi t body => [NsTree.NPI t (direct_text body)]
  end.
(** A node is found again; spaces may have been put into comments and processing instructions
    (XSLT 1.0, 7.3 and 7.4). *)
Definition found_as (a b : NsTree.ntok) : Prop :=
  match a, b with
  | NsTree.NComment s, NsTree.NComment r => spaced s r
  | NsTree.NPI t s, NsTree.NPI t' r => t = t' /\ spaced (drop_white s) r
  | _, _ => a = b
  end.

(** Instructions with names, without carriage returns and disabled escaping.  With [brackets]
    texts may have square brackets. *)
Definition ncname (s : str) : Prop := is_name s /\ ~ In 58 s.
Fixpoint printable (brackets : bool) (i : instruction) : Prop :=
  match i with
  | IElement p l u body => (p = [] \/ ncname p) /\ ncname l /\ u <> Verif.Model.NsSupport.xml_uri /\ fold_right (fun i b => printable brackets i /\ b) True body
  | IAttribute p l u body => (p = [] \/ ncname p) /\ ncname l /\ l <> ascii_str "xmlns" /\ u <> Verif.Model.NsSupport.xml_uri /\ fold_right (fun i b => printable brackets i /\ b) True body
  | ICopyAttribute _ _ _ _ => False
  | IText disable ch => disable = false /\ ~ In 13 ch /\ (brackets = false -> ~ In 93 ch)
  | IComment body => fold_right (fun i b => printable brackets i /\ b) True body
  | IPi t body => is_name t /\ reserved t = false /\ fold_right (fun i b => printable brackets i /\ b) True body
  end.
