(** Readers and filters as objects that refer to each other: XMLFilterImpl.hpp:60-235 and 539-570,
    above the reader over expat, saxexpat.hpp:348-565, and the features of the DOM parser,
    SAX2DOM.hpp:58-90, 175-184.  What the filters of SAX/filter change in the events is in Sax.v;
    here filters pass them on as they are. *)
From Coq Require Import String.
From Verif.Model Require Import Base Containers XSort.

(** The kinds of handlers. *)
Inductive kind := KEntities | KDtd | KContent | KErrors | KDecls | KLexical.
(** What is told to them; [Said] is any event but those named.  *)
Inductive event := LocatorSet | DocStart | DocEnd | Fatal | Said (k : kind) (n : nat).
Definition kind_of (e : event) : kind :=
  match e with LocatorSet | DocStart | DocEnd => KContent | Fatal => KErrors | Said k _ => k end.
(** A handler: the filter of an address, the defaultHandler_ of a filter, or one that the program
    made. *)
Inductive handler := AFilter (f : nat) | Default | User (u : nat).
(** parser_ of expat: as new; after an error, or the end of a document; left in the middle of a
    callback by an exception. *)
Inductive library := Fresh | Spent | Torn.
Record reader := Reader {
  r_slots : kind -> option handler;
  r_namespaces : bool; r_prefixes : bool; r_external : bool;
  r_parsing : bool; r_library : library }.
Inductive object := Filter (parent : option nat) (slots : kind -> handler) | Base (r : reader).
Definition heap : Type := nat -> object.
Definition put (h : heap) (a : nat) (o : object) : heap := fun b => if Nat.eqb b a then o else h b.
(** XMLFilterImpl(), setDefaults, 62-71, 539-547; expat_wrapper(), 348-362. *)
Definition new_filter (parent : option nat) : object := Filter parent (fun _ => Default).
Definition new_reader : reader := Reader (fun _ => None) true true false false Fresh.

Definition same_kind (a b : kind) : bool :=
  match a, b with
  | KEntities, KEntities | KDtd, KDtd | KContent, KContent | KErrors, KErrors | KDecls, KDecls | KLexical, KLexical => true
  | _, _ => false
  end.
(** setContentHandler and the others: XMLFilterImpl.hpp:144-204, saxexpat.hpp:236-249. *)
Definition set_slot (h : heap) (a : nat) (k : kind) (x : handler) : heap :=
  put h a match h a with
          | Filter p s => Filter p (fun k' => if same_kind k' k then x else s k')
          | Base r => Base (Reader (fun k' => if same_kind k' k then Some x else r_slots r k') (r_namespaces r) (r_prefixes r)
                              (r_external r) (r_parsing r) (r_library r))
          end.
Definition get_slot (h : heap) (a : nat) (k : kind) : option handler :=
  match h a with Filter _ s => Some (s k) | Base r => r_slots r k end.
(** setParent, 90. *)
Definition set_parent (h : heap) (a p : nat) : heap := put h a match h a with Filter _ s => Filter (Some p) s | o => o end.

(** FeatureNames.hpp:75-88. *)
Definition namespaces_name : str := ascii_str "http://xml.org/sax/features/namespaces".
Definition prefixes_name : str := ascii_str "http://xml.org/sax/features/namespace-prefixes".
Definition general_name : str := ascii_str "http://xml.org/sax/features/external-general-entities".
Definition parameter_name : str := ascii_str "http://xml.org/sax/features/external-parameter-entities".
Definition validation_name : str := ascii_str "http://xml.org/sax/features/validation".
Inductive refusal := NotRecognized | NotSupported.
(** expat_wrapper::setFeature and getFeature, 388-449; checkNotParsing, 562-571. *)
Definition reader_set (r : reader) (name : str) (v : bool) : reader + refusal :=
  if str_eqb name namespaces_name then
    if r_parsing r then inr NotSupported
    else inl (Reader (r_slots r) v (if negb v && negb (r_prefixes r) then true else r_prefixes r) (r_external r) (r_parsing r) (r_library r))
  else if str_eqb name prefixes_name then
    if r_parsing r then inr NotSupported
    else inl (Reader (r_slots r) (if v && negb (r_namespaces r) then true else r_namespaces r) v (r_external r) (r_parsing r) (r_library r))
  else if str_eqb name general_name || str_eqb name parameter_name then
    if r_parsing r then inr NotSupported
    else inl (Reader (r_slots r) (r_namespaces r) (r_prefixes r) v (r_parsing r) (r_library r))
  else if str_eqb name validation_name then inr NotSupported
  else inr NotRecognized.
Definition reader_get (r : reader) (name : str) : bool + refusal :=
  if str_eqb name namespaces_name then inl (r_namespaces r)
  else if str_eqb name prefixes_name then inl (r_prefixes r)
  else if str_eqb name general_name || str_eqb name parameter_name then inl (r_external r)
  else if str_eqb name validation_name then inl false
  else inr NotRecognized.
(** XMLFilterImpl::setFeature and getFeature, 115-142.  The fuel is for parents of parents; a filter
    that is above itself never ends. *)
Fixpoint set_feature (fuel : nat) (h : heap) (a : nat) (name : str) (v : bool) : outcome (heap + refusal) :=
  match fuel with
  | O => NoFuel
  | S fuel =>
      match h a with
      | Filter (Some p) _ => set_feature fuel h p name v
      | Filter None _ => Val (inr NotRecognized)
      | Base r => Val match reader_set r name v with inl r => inl (put h a (Base r)) | inr x => inr x end
      end
  end.
Fixpoint get_feature (fuel : nat) (h : heap) (a : nat) (name : str) : outcome (bool + refusal) :=
  match fuel with
  | O => NoFuel
  | S fuel =>
      match h a with
      | Filter (Some p) _ => get_feature fuel h p name
      | Filter None _ => Val (inr NotRecognized)
      | Base r => Val (reader_get r name)
      end
  end.

(** A document: what expat says of it, and whether it then finds an error. *)
Record document := Document { d_events : list (kind * nat); d_broken : bool }.
Section Parse.
  (** Which handlers of the program throw at which events. *)
  Context (throws : nat -> event -> bool).
  (** What is heard: handlers of the program, and the filters passed. *)
  Inductive heard := Passed (f : nat) (e : event) | Heard (u : nat) (e : event).
  (** The events of XMLFilterImpl, 228-535, and DefaultHandler.hpp: only fatalError throws,
      370-373.  The answer says whether there was an exception. *)
  Fixpoint dispatch (fuel : nat) (h : heap) (x : handler) (e : event) : outcome (list heard * bool) :=
    match x with
    | User u => Val ([Heard u e], throws u e)
    | Default => Val ([], match e with Fatal => true | _ => false end)
    | AFilter f =>
        match fuel with
        | O => NoFuel
        | S fuel =>
            match h f with
            | Filter _ s => obind (dispatch fuel h (s (kind_of e)) e) (fun '(l, t) => Val (Passed f e :: l, t))
            | Base _ => UB
            end
        end
    end.
  (** One event from the reader. *)
  Definition emit (fuel : nat) (h : heap) (r : reader) (e : event) : outcome (list heard * bool) :=
    match r_slots r (kind_of e) with
    | Some x => dispatch fuel h x e
    | None => Val ([], false)
    end.
  Fixpoint emit_all (fuel : nat) (h : heap) (r : reader) (l : list event) : outcome (list heard * bool) :=
    match l with
    | [] => Val ([], false)
    | e :: l =>
        obind (emit fuel h r e) (fun '(a, t) =>
        if t then Val (a, true) else obind (emit_all fuel h r l) (fun '(b, t) => Val (a ++ b, t)))
    end.
  Definition with_state (r : reader) (parsing : bool) (l : library) : reader :=
    Reader (r_slots r) (r_namespaces r) (r_prefixes r) (r_external r) parsing l.
  (** expat_wrapper::parse, 451-477, and do_parse, 479-507, of a document that can be read.
      [Torn]: what expat does after an exception left one of its callbacks is not defined. *)
  Definition reader_parse (fuel : nat) (h : heap) (a : nat) (r : reader) (d : document) : outcome (heap * list heard * bool) :=
    obind (emit fuel h r LocatorSet) (fun '(l1, t) =>
    if t then Val (h, l1, true) else
    obind (emit fuel h r DocStart) (fun '(l2, t) =>
    if t then Val (put h a (Base (with_state r true (r_library r))), l1 ++ l2, true) else
    obind match r_library r with
          | Fresh => emit_all fuel h r (map (fun p => Said (fst p) (snd p)) (d_events d))
          | Spent => Val ([], false)
          | Torn => UB
          end (fun '(l3, t) =>
    if t then Val (put h a (Base (with_state r true Torn)), l1 ++ l2 ++ l3, true) else
    let failed := match r_library r with Fresh => d_broken d | _ => true end in
    obind (if failed then emit fuel h r Fatal else Val ([], false)) (fun '(l4, t) =>
    if t then Val (put h a (Base (with_state r true Spent)), l1 ++ l2 ++ l3 ++ l4, true) else
    obind (emit fuel h r DocEnd) (fun '(l5, t) =>
    Val (put h a (Base (if t then with_state r true Spent else with_state r false Fresh)), l1 ++ l2 ++ l3 ++ l4 ++ l5, t)))))).
  (** setupParse, 549-557. *)
  Definition setup (h : heap) (a p : nat) : heap :=
    fold_left (fun h k => set_slot h p k (AFilter a)) [KEntities; KDtd; KContent; KErrors; KDecls; KLexical] h.
  (** XMLFilterImpl::parse, 212-216: without a parent, a null pointer is used. *)
  Fixpoint parse (fuel : nat) (h : heap) (a : nat) (d : document) : outcome (heap * list heard * bool) :=
    match fuel with
    | O => NoFuel
    | S below =>
        match h a with
        | Filter None _ => UB
        | Filter (Some p) _ => parse below (setup h a p) p d
        | Base r => reader_parse fuel h a r d
        end
    end.
End Parse.

(** DOM::Parser: features_ and setFeature, SAX2DOM.hpp:58-90. *)
Definition wishes : Type := list (str * bool).
Definition first_wishes : wishes := map_set validation_name false (map_set prefixes_name true (map_set namespaces_name true [])).
Definition wish (w : wishes) (name : str) (v : bool) : wishes := map_set name v w.
(** setParserFeatures, 175-184: in the order of the map, exceptions ignored. *)
Definition grant (r : reader) (w : wishes) : reader :=
  fold_left (fun r p => match reader_set r (fst p) (snd p) with inl r => r | inr _ => r end) w r.
