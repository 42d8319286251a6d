(** XSLT 1.0, section 2.6: combining stylesheets. *)
From Coq Require Import String.
From Verif.Model Require Import Base Attrs XSort XSheet Precedence XInclude.
From Verif.Spec Require Import XSheetSpec PrecedenceSpec.
From Coq Require Import List.
Import ListNotations.
Open Scope Z_scope.

Section Combining.
  Context {scope : Type}.
  Notation tag := (tag (scope := scope)).
  Notation event := (event (scope := scope)).
  Notation heard := (heard (scope := scope)).
  Notation document := (document (scope := scope)).
  Context (world : str -> option document) (absolute : str -> str -> str).

  (** An xsl:include or xsl:import element at [base], and the document it refers to: its href,
      relative to the base. *)
  Definition refers (g : tag) (n : string) (base h : str) : Prop :=
    xsl g n /\ only g ["href"]%string /\ ordinary_tag g /\ (forall a, In a (g_atts g) -> a_uri a <> [] -> a_local a <> ascii_str "href") /\
    exists v, has g "href" v /\ v <> [] /\ h = absolute base v.
  Definition joins (g : tag) : Prop := xsl g "include" \/ xsl g "import".

  (** What a stylesheet consists of once its includes and imports are followed (PrecedenceSpec
      has the tree of them).  [Begins]: a document begins.  [Asks]: an include or import of the
      main document, which the stylesheet must allow at that place. *)
  Inductive piece := Begins | Tells (e : event) | Spells (s : str) | Asks (g : tag).
  Definition piece_of (e : heard) : piece :=
    match e with HStart g => Tells (Start g) | HEnd _ _ => Tells End | HText s => Spells s end.
  Definition plain_event (e : heard) : Prop := match e with HStart g => ~ joins g | _ => True end.
  (** The main document, or one that is brought in through [chain], the documents that are being
      read.  An include or import is an empty element; in a document that is brought in it may
      hold white space.  No document is brought in by itself. *)
  Inductive unfolds : bool -> list str -> str -> list heard -> list (item piece) -> Prop :=
  | U_end : forall main chain base, unfolds main chain base [] []
  | U_plain : forall main chain base e l items, plain_event e -> unfolds main chain base l items ->
      unfolds main chain base (e :: l) (Declares (piece_of e) :: items)
  | U_include : forall (main : bool) chain base g h white_ evs l sub items, refers g "include" base h -> ~ In h chain ->
      world h = Some (Doc evs true) -> unfolds false (chain ++ [h]) h evs sub ->
      Forall white white_ -> (main = true -> white_ = []) -> unfolds main chain base l items ->
      unfolds main chain base (HStart g :: map HText white_ ++ HEnd xslt (ascii_str "include") :: l)
        ((if main then [Declares (Asks g)] else map (fun s => Declares (Spells s)) white_) ++ Includes (Declares Begins :: sub) :: items)
  | U_import : forall (main : bool) chain base g h white_ evs l sub items, refers g "import" base h -> ~ In h chain ->
      world h = Some (Doc evs true) -> unfolds false (chain ++ [h]) h evs sub ->
      Forall white white_ -> (main = true -> white_ = []) -> unfolds main chain base l items ->
      unfolds main chain base (HStart g :: map HText white_ ++ HEnd xslt (ascii_str "import") :: l)
        ((if main then [Declares (Asks g)] else []) ++ Imports (Declares Begins :: sub) :: map (fun s => Declares (Spells s)) white_ ++ items).

  (** The handlers take the pieces one by one, texts that follow each other as one. *)
  Context {D : Type} (down : D -> precedence -> event -> res D) (begin : D -> D).
  Definition takes (d : D) (p : precedence) (e : event) : reply D :=
    match down d p e with Ok d => Done d | Throws => Fails | _ => Wild end.
  Definition takes_text (d : D) (p : precedence) (s : str) : reply D :=
    match s with [] => Done d | _ => takes d p (Characters s) end.
  Fixpoint play (l : list (piece * precedence)) (d : D) (text : str) : reply (D * str) :=
    match l with
    | [] => Done (d, text)
    | (Begins, _) :: l => play l (begin d) text
    | (Spells s, _) :: l => play l d (text ++ s)
    | (Tells e, p) :: l => next (takes_text d p text) (fun d => next (takes d p e) (fun d => play l d []))
    | (Asks g, p) :: l => next (takes_text d p text) (fun d => match down d p (Start g) with LeftOut => play l d [] | Throws => Fails | _ => Wild end)
    end.
  (** How many documents are brought in. *)
  Fixpoint documents {T} (i : item T) : nat :=
    match i with
    | Declares _ => 0
    | Includes l => S (list_sum (map documents l))
    | Imports l => S (list_sum (map documents l))
    end.
End Combining.

(** * Stylesheets in several documents *)
Section Modules.
  Context {scope X M N P : Type} (V : services (scope := scope) (X := X) (M := M) (N := N) (P := P)).
  Notation xml := (xml (scope := scope)).
  Notation declaration := (declaration (X := X) (M := M) (N := N) (P := P)).
  Context (world : str -> option xml) (absolute : str -> str -> str).
  (** The events of a document as a reader reports them. *)
  Fixpoint reports (t : xml) : list (heard (scope := scope)) :=
    match t with
    | Elem g kids => HStart g :: flat_map reports kids ++ [HEnd (g_uri g) (g_local g)]
    | Txt s => [HText s]
    end.
  Definition given_world (h : str) : option (document (scope := scope)) := option_map (fun t => Doc (reports t) true) (world h).
  (** Text is not empty, and does not follow text. *)
  Fixpoint spaced_out (l : list (heard (scope := scope))) : Prop :=
    match l with
    | HText s :: l => s <> [] /\ match l with HText _ :: _ => False | _ => True end /\ spaced_out l
    | _ :: l => spaced_out l
    | [] => True
    end.
  (** A top-level element: no include or import is inside, nor is it an alias. *)
  Definition own_element (t : xml) (d : declaration) : Prop :=
    declares V [] false t d /\ ordinary t /\ aliases [d] = [] /\ spaced_out (reports t) /\ (forall g, In (HStart g) (reports t) -> ~ joins g).
  Definition root_tag (g : tag (scope := scope)) : Prop :=
    (xsl g "stylesheet" \/ xsl g "transform") /\ only g ["version"; "exclude-result-prefixes"; "id"]%string /\ has g "version" (ascii_str "1.0") /\ ordinary_tag g.
  (** A stylesheet document and all that it brings in: its declarations, in place of an include
      those of the document it refers to, and the import tree. *)
  Inductive module : bool -> list str -> str -> xml -> list (item declaration) -> Prop :=
  | Module : forall main chain base g kids items, root_tag g -> contents main chain base kids items -> module main chain base (Elem g kids) items
  with contents : bool -> list str -> str -> list xml -> list (item declaration) -> Prop :=
  | N_end : forall main chain base, contents main chain base [] []
  | N_declares : forall main chain base t d kids items, own_element t d -> contents main chain base kids items ->
      contents main chain base (t :: kids) (Declares d :: items)
  | N_include : forall main chain base g h sub doc kids items inner, refers absolute g "include" base h -> ~ In h chain -> world h = Some doc ->
      module false (chain ++ [h]) h doc inner -> Forall white sub -> (main = true -> sub = []) ->
      contents main chain base kids items -> contents main chain base (Elem g (map Txt sub) :: kids) (Includes inner :: items)
  | N_import : forall main chain base g h sub doc kids items inner, refers absolute g "import" base h -> ~ In h chain -> world h = Some doc ->
      module false (chain ++ [h]) h doc inner -> Forall white sub -> (main = true -> sub = []) ->
      contents main chain base kids items -> contents main chain base (Elem g (map Txt sub) :: kids) (Imports inner :: items).
  (** The stylesheet that one document of the import tree is, with what it includes. *)
  Definition sheet_of (ds : list declaration) : sheet (X := X) (M := M) (N := N) (P := P) :=
    Sheet (templates ds) (variables ds) (keys ds) (option_map fst (hd_error (outputs ds))) (flat_map snd (outputs ds)).
  Definition sound (ds : list declaration) : Prop := NoDup (named (templates ds)) /\ (length (outputs ds) <= 1)%nat.
End Modules.
