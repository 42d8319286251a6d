(** What a text says about names and namespaces, from the Namespaces in XML recommendation;
    and what a tree says. *)
From Coq Require Import List ZArith Bool Permutation.
From Verif.Model Require Import Base NsSupport Stream.
From Verif.Spec Require Import XmlRead.
Import ListNotations.
Open Scope Z_scope.

Inductive ntok :=
  | NStart (uri local : list Z) (atts : list (list Z * list Z * list Z))
  | NEnd (uri local : list Z)
  | NText (s : list Z)
  | NComment (s : list Z)
  | NPI (target data : list Z).

(** The prefix and local part of a name: a name has at most one colon, not at an end. *)
Fixpoint at_colon (n : txt) : option (txt * txt) :=
  match n with
  | [] => None
  | c :: r => if c =? 58 then Some ([], r) else match at_colon r with Some (a, b) => Some (c :: a, b) | None => None end
  end.
Definition split_name (n : txt) : option (txt * txt) :=
  match at_colon n with
  | None => Some ([], n)
  | Some ([], _) => None
  | Some (_, []) => None
  | Some (p, l) => match at_colon l with None => Some (p, l) | Some _ => None end
  end.
(** The declarations among attributes, and the others. *)
Definition declares (n : txt) : option txt :=
  match split_name n with
  | Some ([], l) => if text_is l s_xmlns then Some [] else None
  | Some (p, l) => if text_is p s_xmlns then Some l else None
  | None => None
  end.
Fixpoint declarations (atts : list (txt * txt)) : list (txt * txt) :=
  match atts with
  | [] => []
  | (n, v) :: r => match declares n with Some p => (p, v) :: declarations r | None => declarations r end
  end.
Definition plain (atts : list (txt * txt)) : list (txt * txt) :=
  filter (fun x => match declares (fst x) with Some _ => false | None => true end) atts.
(** xml is bound to its namespace and nothing else is; xmlns is not declared; a prefix
    cannot be undeclared. *)
Definition declaration_ok (d : txt * txt) : bool :=
  negb (text_is (fst d) s_xmlns) && Bool.eqb (text_is (fst d) s_xml) (text_is (snd d) xml_uri)
  && (match fst d, snd d with _ :: _, [] => false | _, _ => true end).
Fixpoint bound (scope : list (txt * txt)) (p : txt) : option txt :=
  match scope with
  | [] => if text_is p s_xml then Some xml_uri else None
  | (q, u) :: r => if text_is q p then Some u else bound r p
  end.
(** The expanded name: no prefix is the default namespace for elements, none for attributes. *)
Definition element_name (scope : list (txt * txt)) (n : txt) : option (txt * txt) :=
  match split_name n with
  | Some ([], l) => Some (match bound scope [] with Some u => u | None => [] end, l)
  | Some (p, l) => match bound scope p with Some u => Some (u, l) | None => None end
  | None => None
  end.
Definition attribute_name (scope : list (txt * txt)) (n : txt) : option (txt * txt) :=
  match split_name n with
  | Some ([], l) => Some ([], l)
  | Some (p, l) => match bound scope p with Some u => Some (u, l) | None => None end
  | None => None
  end.
Fixpoint attribute_names (scope : list (txt * txt)) (atts : list (txt * txt)) : option (list (txt * txt * txt)) :=
  match atts with
  | [] => Some []
  | (n, v) :: r =>
      match attribute_name scope n, attribute_names scope r with
      | Some x, Some l =>
          if existsb (fun y => text_is (fst x) (fst (fst y)) && text_is (snd x) (snd (fst y))) l then None
          else Some ((x, v) :: l)
      | _, _ => None
      end
  end.
(** The tokens with their names expanded; [scopes] has the declarations in force, for each
    open element. *)
Fixpoint resolve (scopes : list (list (txt * txt))) (l : list tok) : option (list ntok) :=
  match l with
  | [] => Some []
  | TStart n atts :: r =>
      let scope := declarations atts ++ hd [] scopes in
      if forallb declaration_ok (declarations atts) then
        match element_name scope n, attribute_names scope (plain atts), resolve (scope :: scopes) r with
        | Some (u, l), Some a, Some t => Some (NStart u l a :: t)
        | _, _, _ => None
        end
      else None
  | TEnd n :: r =>
      match element_name (hd [] scopes) n, resolve (tl scopes) r with
      | Some (u, l), Some t => Some (NEnd u l :: t)
      | _, _ => None
      end
  | TText s :: r => match resolve scopes r with Some t => Some (NText s :: t) | None => None end
  | TComment s :: r => match resolve scopes r with Some t => Some (NComment s :: t) | None => None end
  | TPI t d :: r => match resolve scopes r with Some t' => Some (NPI t d :: t') | None => None end
  end.
Definition ntext (s : txt) : list ntok := match s with [] => [] | _ => [NText s] end.
Fixpoint njoin_acc (run : txt) (l : list ntok) : list ntok :=
  match l with
  | [] => ntext run
  | NText s :: r => njoin_acc (run ++ s) r
  | t :: r => ntext run ++ t :: njoin_acc [] r
  end.
Definition njoin (l : list ntok) : list ntok := njoin_acc [] l.
(** Attributes have no order. *)
Definition same_token (a b : ntok) : Prop :=
  match a, b with
  | NStart u l x, NStart u' l' y => u = u' /\ l = l' /\ Permutation x y
  | _, _ => a = b
  end.

(** What a tree says.  A node made without a namespace has only a node name.  Attributes that
    declare namespaces are not data. *)
Definition local_name (n : dname) : txt := match d_uri n with [] => d_name n | _ => d_local n end.
Definition is_declaration (n : dname) : bool := text_is (d_name n) s_xmlns || text_is (d_prefix n) s_xmlns.
Definition tree_attrs (atts : list (dname * txt)) : list (txt * txt * txt) :=
  map (fun x => (d_uri (fst x), local_name (fst x), snd x)) (filter (fun x => negb (is_declaration (fst x))) atts).
Fixpoint tree_tokens (t : dtree) : list ntok :=
  match t with
  | DElem n atts kids =>
      NStart (d_uri n) (local_name n) (tree_attrs atts) ::
      (fix go (l : list dtree) : list ntok := match l with [] => [] | k :: r => tree_tokens k ++ go r end) kids ++
      [NEnd (d_uri n) (local_name n)]
  | DText s | DCData s => [NText s]
  | DComment s => [NComment s]
  | DPI t d => [NPI t d]
  | DEntRef _ | DDocType => []
  end.

(** Trees XML can express with one prefix for each namespace, as in [tbl]; [dflt] says whether
    the default namespace is used for elements, and then none is outside any namespace. *)
Definition ncname (s : txt) : Prop := is_name s /\ ~ In 58 s.
Definition auto_like (p : txt) : bool :=
  match p with 97 :: r => forallb (fun c => (48 <=? c) && (c <=? 57)) r | _ => false end.
Definition entry_ok (dflt : bool) (x : txt * txt) : Prop :=
  let (u, p) := x in
  u <> [] /\ (p = [] /\ dflt = true \/ ncname p) /\ p <> s_xmlns /\ auto_like p = false /\ (p = s_xml <-> u = xml_uri).
Definition scheme_ok (tbl : list (txt * txt)) (dflt : bool) : Prop :=
  NoDup (map fst tbl) /\ NoDup (map snd tbl) /\ Forall (entry_ok dflt) tbl.
Definition element_ok (tbl : list (txt * txt)) (dflt : bool) (n : dname) : Prop :=
  (d_uri n = [] /\ ncname (d_name n) /\ dflt = false) \/
  (d_uri n <> [] /\ ncname (d_local n) /\ In (d_uri n, d_prefix n) tbl).
(** An attribute may lack a prefix, then one is made up. *)
Definition attribute_ok (tbl : list (txt * txt)) (n : dname) : Prop :=
  d_name n <> [] /\
  ((d_uri n = [] /\ ncname (d_name n)) \/
   (d_uri n <> [] /\ ncname (d_local n) /\
    exists p, p <> [] /\ In (d_uri n, p) tbl /\ (d_prefix n = p \/ d_prefix n = [] /\ d_uri n <> xml_uri))).
(** A CDATA section with at most one end marker in it. *)
Definition one_marker (s : txt) : Prop := forall a b, s = a ++ [93; 93; 62] ++ b -> ~ contains [93; 93; 62] b.
Fixpoint expressible (tbl : list (txt * txt)) (dflt : bool) (t : dtree) : Prop :=
  match t with
  | DElem n atts kids =>
      element_ok tbl dflt n /\
      Forall (fun x => is_declaration (fst x) = true \/ attribute_ok tbl (fst x)) atts /\
      NoDup (map fst (tree_attrs atts)) /\
      (fix go (l : list dtree) : Prop := match l with [] => True | k :: r => expressible tbl dflt k /\ go r end) kids
  | DText s => ~ In 13 s
  | DCData s => ~ In 13 s /\ one_marker s
  | DComment s => comment_ok s
  | DPI t d => pi_ok t d
  | DEntRef _ => False
  | DDocType => True
  end.
