(** The parser of include/SAX/parsers/saxgarden.hpp.  Its grammar is written with Boost.Spirit
    (classic), which is not in the repository; what is assumed about Spirit is in the first
    section.  Characters are bytes, 0 to 255. *)
From Coq Require Import String.
From Verif.Model Require Import Base Attrs Sax XSort.
From Coq Require Import List.
Import ListNotations.
Open Scope Z_scope.

(** * Spirit *)
Inductive greport := Said (e : sax) | Erred (fatal : bool).
(** The members the actions change, saxgarden.hpp:117-124, and what the handlers heard. *)
Record garden := Garden {
  g_heard : list greport; g_elements : list str; g_attrs : list attr; g_attr : attr;
  g_target : str; g_data : str }.

(** A parser succeeds or fails, in both cases at some place in the input, and changes the
    members on the way; what a parser did before it failed is not undone. *)
Inductive res := Res (ok : bool) (g : garden) (rest : str) | Starve.
Definition parser := garden -> str -> res.
Definition seq (a b : parser) : parser := fun g s =>
  match a g s with Res true g' r => b g' r | x => x end.
Definition alt (a b : parser) : parser := fun g s =>
  match a g s with Res false g' _ => b g' s | x => x end.
Definition opt (a : parser) : parser := fun g s =>
  match a g s with Res false g' _ => Res true g' s | x => x end.
Fixpoint star (fuel : nat) (a : parser) : parser := fun g s =>
  match fuel with
  | O => Starve
  | S f => match a g s with
           | Res true g' r => star f a g' r
           | Res false g' _ => Res true g' s
           | Starve => Starve
           end
  end.
Definition plus (fuel : nat) (a : parser) : parser := seq a (star fuel a).
(** a - b fails when b matches at least as much as a. *)
Definition diff (a b : parser) : parser := fun g s =>
  match a g s with
  | Res true g' r =>
      match b g' s with
      | Res true g'' r' =>
          if (length s - length r' <? length s - length r)%nat then Res true g'' r else Res false g'' r'
      | Res false g'' _ => Res true g'' r
      | Starve => Starve
      end
  | x => x
  end.
(** a[f]: the action gets what was matched. *)
Definition act (f : str -> garden -> garden) (a : parser) : parser := fun g s =>
  match a g s with
  | Res true g' r => Res true (f (firstn (length s - length r) s) g') r
  | x => x
  end.
Definition chr (p : Z -> bool) : parser := fun g s =>
  match s with
  | c :: r => if p c then Res true g r else Res false g s
  | [] => Res false g []
  end.
(** str_p, with the case folding of as_lower_d if asked. *)
Fixpoint text_p (fold : Z -> Z) (t : str) : parser := fun g s =>
  match t, s with
  | [], _ => Res true g s
  | c :: t', d :: r => if c =? fold d then text_p fold t' g r else Res false g s
  | _ :: _, [] => Res false g []
  end.
Definition str_p (t : str) : parser := text_p (fun c => c) t.
Definition lower (c : Z) : Z := if (65 <=? c) && (c <=? 90) then c + 32 else c.

(** * Character sets, saxgarden.hpp:146-153, 179, 226 *)
Definition between (a b c : Z) : bool := (a <=? c) && (c <=? b).
Definition is_space (c : Z) : bool := (c =? 32) || (c =? 9) || (c =? 13) || (c =? 10).
Definition is_letter (c : Z) : bool :=
  between 65 90 c || between 97 122 c || between 192 214 c || between 216 246 c || between 248 255 c.
Definition is_digit (c : Z) : bool := between 48 57 c.
Definition is_xdigit (c : Z) : bool := is_digit c || between 65 70 c || between 97 102 c.
Definition is_name_start (c : Z) : bool := is_letter c || (c =? 95) || (c =? 58).
Definition is_name_char (c : Z) : bool :=
  is_letter c || is_digit c || (c =? 46) || (c =? 95) || (c =? 58) || (c =? 45) || (c =? 183).
Definition is_version (c : Z) : bool :=
  between 65 90 c || between 97 122 c || is_digit c || (c =? 95) || (c =? 46) || (c =? 58) || (c =? 45).
Definition is_alpha (c : Z) : bool := between 65 90 c || between 97 122 c.
(** Char is chset<char>("\x9\xA\xD\x20-\xFF").  Spirit fills the range with a loop from the
    first to the last character; where char is signed, the last one is -1 and the range is
    empty. *)
Definition is_char (signed : bool) (c : Z) : bool :=
  (c =? 9) || (c =? 10) || (c =? 13) || (negb signed && between 32 255 c).
Definition is (c : Z) : Z -> bool := fun d => c =? d.

Section Grammar.
  Context (signed : bool)         (* char is signed *)
          (has_content : bool)    (* a content handler is set *)
          (has_errors : bool)     (* an error handler is set *)
          (n : nat).              (* enough steps for every repetition *)

  (** * Actions, saxgarden.hpp:303-447 *)
  Definition say (e : sax) (g : garden) : garden :=
    if has_content
    then Garden (g_heard g ++ [Said e]) (g_elements g) (g_attrs g) (g_attr g) (g_target g) (g_data g)
    else g.
  (** reportError, 449-461. *)
  Definition err (fatal : bool) (g : garden) : garden :=
    if has_errors
    then Garden (g_heard g ++ [Erred fatal]) (g_elements g) (g_attrs g) (g_attr g) (g_target g) (g_data g)
    else g.
  Definition pop (g : garden) : garden :=
    Garden (g_heard g) (tl (g_elements g)) (g_attrs g) (g_attr g) (g_target g) (g_data g).
  (** elements_.top(): every call in the grammar comes after a push. *)
  Definition top (g : garden) : str := hd [] (g_elements g).
  Definition no_attr : attr := Attr [] [] [] [] [].

  Definition open_element (t : str) (g : garden) : garden :=
    Garden (g_heard g) (t :: g_elements g) [] (g_attr g) (g_target g) (g_data g).
  Definition close_element (_ : str) (g : garden) : garden :=
    say (StartElement [] (top g) [] (g_attrs g)) g.
  Definition close_empty (_ : str) (g : garden) : garden :=
    if has_content
    then pop (say (EndElement [] (top g) []) (say (StartElement [] (top g) [] (g_attrs g)) g))
    else g.
  Definition end_name (t : str) (g : garden) : garden :=
    if str_eqb t (top g) then g else err true g.
  Definition end_element (_ : str) (g : garden) : garden := pop (say (EndElement [] (top g) []) g).
  Definition attribute_name (t : str) (g : garden) : garden :=
    Garden (g_heard g) (g_elements g) (g_attrs g) (Attr [] t [] [] []) (g_target g) (g_data g).
  Definition attribute_value (t : str) (g : garden) : garden :=
    let a := Attr [] (a_local (g_attr g)) [] (ascii_str "CDATA") t in
    Garden (g_heard g) (g_elements g) (g_attrs g ++ [a]) a (g_target g) (g_data g).
  Definition element_content (t : str) (g : garden) : garden :=
    match t with [] => g | _ => say (Characters t) g end.
  Definition pi_target (t : str) (g : garden) : garden :=
    Garden (g_heard g) (g_elements g) (g_attrs g) (g_attr g) t [].
  Definition pi_data (t : str) (g : garden) : garden :=
    Garden (g_heard g) (g_elements g) (g_attrs g) (g_attr g) (g_target g) t.
  Definition pi_end (_ : str) (g : garden) : garden := say (PI (g_target g) (g_data g)) g.
  (** declaredEntities_, 231-235. *)
  Definition entity (t : str) : option str :=
    if str_eqb t (ascii_str "lt") then Some [60]
    else if str_eqb t (ascii_str "gt") then Some [62]
    else if str_eqb t (ascii_str "amp") then Some [38]
    else if str_eqb t (ascii_str "apos") then Some [39]
    else if str_eqb t (ascii_str "quot") then Some [34]
    else None.
  Definition entity_ref (t : str) (g : garden) : garden :=
    if has_content
    then match entity (firstn (length t - 1) t) with
         | Some v => say (Characters v) g
         | None => err false g
         end
    else g.
  (** The value that is computed is not used; that computing it overflows for long references is
      not modelled. *)
  Definition character_ref (_ : str) (g : garden) : garden := say (Characters [63]) g.

  (** * Rules, saxgarden.hpp:146-228 *)
  Definition Char : parser := chr (is_char signed).
  (** The difference of two character sets is a character set. *)
  Definition Char_but (p : Z -> bool) : parser := chr (fun c => is_char signed c && negb (p c)).
  Definition Spaces : parser := plus n (chr is_space).
  Definition Name : parser := seq (chr is_name_start) (star n (chr is_name_char)).
  Definition CharData : parser :=
    act element_content
      (star n (diff (chr (fun c => negb (is 60 c) && negb (is 38 c))) (str_p (ascii_str "]]>")))).
  Definition Comment1 : parser :=
    star n (alt (Char_but (is 45)) (seq (chr (is 45)) (Char_but (is 45)))).
  Definition Comment_ : parser := seq (str_p (ascii_str "<!--")) (seq Comment1 (str_p (ascii_str "-->"))).
  Definition PITarget : parser := diff Name (text_p lower (ascii_str "xml")).
  Definition PIData : parser :=
    opt (seq (opt Spaces) (star n (diff Char (str_p (ascii_str "?>"))))).
  Definition PI_ : parser :=
    seq (str_p (ascii_str "<?")) (seq (act pi_target PITarget) (seq (opt Spaces)
      (seq (act pi_data PIData) (act pi_end (str_p (ascii_str "?>")))))).
  Definition CData : parser := star n (diff Char (str_p (ascii_str "]]>"))).
  Definition CDSect : parser :=
    seq (str_p (ascii_str "<![CDATA[")) (seq (act element_content CData) (str_p (ascii_str "]]>"))).
  Definition Eq : parser := seq (opt Spaces) (seq (chr (is 61)) (opt Spaces)).
  Definition quoted (p : parser) : parser :=
    alt (seq (chr (is 39)) (seq p (chr (is 39)))) (seq (chr (is 34)) (seq p (chr (is 34)))).
  Definition VersionInfo : parser :=
    seq Spaces (seq (str_p (ascii_str "version")) (seq Eq (quoted (plus n (chr is_version))))).
  Definition SDDecl : parser :=
    seq Spaces (seq (str_p (ascii_str "standalone")) (seq Eq
      (quoted (alt (str_p (ascii_str "yes")) (str_p (ascii_str "no")))))).
  Definition EncName : parser :=
    seq (chr is_alpha) (star n (chr (fun c => is_version c && negb (is 58 c)))).
  Definition EncodingDecl : parser :=
    seq Spaces (seq (str_p (ascii_str "encoding")) (seq Eq
      (alt (seq (chr (is 34)) (seq EncName (chr (is 34)))) (seq (chr (is 39)) (seq EncName (chr (is 39))))))).
  Definition XMLDecl : parser :=
    seq (str_p (ascii_str "<?xml")) (seq VersionInfo (seq (opt EncodingDecl) (seq (opt SDDecl)
      (seq (opt Spaces) (str_p (ascii_str "?>")))))).
  Definition doctypedecl : parser :=
    seq (str_p (ascii_str "<!DOCTYPE"))
      (seq (star n (Char_but (fun c => is 91 c || is 62 c)))
        (seq (opt (seq (chr (is 91)) (seq (star n (Char_but (is 93))) (chr (is 93)))))
          (chr (is 62)))).
  Definition Misc : parser := alt Comment_ (alt Spaces PI_).
  Definition prolog : parser :=
    seq (opt XMLDecl) (seq (star n Misc) (opt (seq doctypedecl (star n Misc)))).

  Definition CharRef : parser :=
    alt (seq (str_p (ascii_str "&#")) (act character_ref (seq (plus n (chr is_digit)) (chr (is 59)))))
        (seq (str_p (ascii_str "&#x")) (act character_ref (seq (plus n (chr is_xdigit)) (chr (is 59))))).
  Definition EntityRef : parser := seq (chr (is 38)) (act entity_ref (seq Name (chr (is 59)))).
  Definition Reference : parser := alt EntityRef CharRef.

  Definition value_until (q : Z) : parser :=
    star n (alt (chr (fun c => negb (is 60 c) && negb (is 38 c) && negb (is q c))) Reference).
  Definition AttValue : parser :=
    alt (seq (chr (is 34)) (seq (act attribute_value (value_until 34)) (chr (is 34))))
        (seq (chr (is 39)) (seq (act attribute_value (value_until 39)) (chr (is 39)))).
  Definition Attribute : parser := seq (act attribute_name Name) (seq Eq AttValue).
  Definition STag : parser :=
    seq (chr (is 60)) (seq (act open_element Name) (seq (star n (seq Spaces Attribute)) (opt Spaces))).
  Definition EmptyElemTag : parser := act close_empty (str_p (ascii_str "/>")).
  Definition ETag : parser :=
    act end_element (seq (str_p (ascii_str "</")) (seq (act end_name Name) (seq (opt Spaces) (chr (is 62))))).
  Definition content (element : parser) : parser :=
    seq (opt CharData)
      (star n (seq (alt element (alt Reference (alt CDSect (alt Comment_ PI_)))) (opt CharData))).
  Fixpoint element (depth : nat) : parser := fun g s =>
    match depth with
    | O => Starve
    | S d =>
        seq STag (alt EmptyElemTag
          (seq (act close_element (str_p [62])) (seq (content (element d)) ETag))) g s
    end.
  Definition document (depth : nat) : parser := seq prolog (seq (element depth) (star n Misc)).
End Grammar.

(** parse, saxgarden.hpp:264-300, of a document that could be opened, by a new parser.  When the
    document does not match to its end, fifty characters are printed from the place reached,
    whether they are there or not. *)
Definition new_garden : garden := Garden [] [] [] no_attr [] [].
Definition parse (signed has_content has_errors : bool) (s : str) : outcome (bool * list greport) :=
  let n := S (length s) in
  let g0 := say has_content StartDocument new_garden in
  match document signed has_content has_errors n n g0 s with
  | Starve => NoFuel
  | Res ok g r =>
      let g' := say has_content EndDocument g in
      match ok, r with
      | true, [] => Val (true, g_heard g')
      | _, _ => if (length r <? 50)%nat then UB else Val (false, g_heard g')
      end
  end.
