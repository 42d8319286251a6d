(** The texts of declarations that the readers hand to declaration handlers:
    include/SAX/wrappers/saxexpat.hpp:712-890 and saxlibxml2.hpp:697-852. *)
From Coq Require Import String.
From Verif.Model Require Import Base XSort.
From Coq Require Import List.
Import ListNotations.
Open Scope Z_scope.

(** XML_Content of expat: type, quant, name, children.  The name is used for names only. *)
Inductive content_type := CtEmpty | CtAny | CtMixed | CtName | CtChoice | CtSeq.
Inductive quant := Once | Opt | Rep | Plus.
Inductive content := Content (type : content_type) (q : quant) (name : str) (children : list content).

(** The last switch of both functions, saxexpat.hpp:817-830, saxlibxml2.hpp:776-789. *)
Definition quant_text (q : quant) : str :=
  match q with Once => [] | Opt => [63] | Rep => [42] | Plus => [43] end.

(** convertXML_Content, saxexpat.hpp:724-831. *)
Fixpoint convert_content (is_child : bool) (m : content) : str :=
  let '(Content type q name children) := m in
  let concatenator :=
    match type with CtMixed | CtChoice => 124 | CtSeq => 44 | _ => 32 end in
  let head :=
    match type with
    | CtEmpty => ascii_str "EMPTY"
    | CtAny => ascii_str "ANY"
    | CtMixed => match children with [] => ascii_str "(#PCDATA)" | _ => ascii_str "(#PCDATA" end
    | CtName => if is_child then name else [40] ++ name ++ [41]
    | CtChoice | CtSeq => []
    end in
  let inside :=
    match children with
    | [] => []
    | c :: r =>
        match type with CtMixed => [] | _ => [40] end
        ++ convert_content true c
        ++ flat_map (fun k => concatenator :: convert_content true k) r
        ++ [41]
    end in
  head ++ inside ++ quant_text q.

(** xmlElementContent of libxml2: a type, an occurrence, a name and two children. *)
Inductive lx_type := LxPcdata | LxElement | LxSeq | LxOr.
Inductive lx_content :=
  | LxContent (type : lx_type) (q : quant) (name : str) (c1 c2 : option lx_content).
Inductive lx_decl := LxEmptyDecl | LxAnyDecl | LxMixedDecl | LxElementDecl.

(** convertXML_Content, saxlibxml2.hpp:713-790.  A null model pointer is dereferenced except
    for ANY. *)
Fixpoint lx_convert (decl : lx_decl) (is_child : bool) (m : lx_content) : str :=
  let '(LxContent type q name c1 c2) := m in
  let head :=
    match decl with
    | LxEmptyDecl => ascii_str "EMPTY"
    | LxAnyDecl => ascii_str "ANY"
    | LxMixedDecl => match c1 with None => ascii_str "(#PCDATA)" | _ => ascii_str "(#PCDATA" end
    | LxElementDecl => []
    end in
  let concatenator :=
    match type with
    | LxSeq => 44
    | LxOr => 124
    | LxElement | LxPcdata => match decl with LxMixedDecl => 124 | _ => 32 end
    end in
  let named := match type with
               | LxElement => if is_child then name else [40] ++ name ++ [41]
               | _ => []
               end in
  let inside :=
    match c1 with
    | None => []
    | Some a =>
        (if is_child then [] else [40])
        ++ lx_convert LxElementDecl true a
        ++ match c2 with Some b => concatenator :: lx_convert LxElementDecl true b | None => [] end
        ++ (if is_child then [] else [41])
    end in
  match decl with
  | LxAnyDecl => head
  | _ => head ++ named ++ inside ++ quant_text q
  end.
Definition lx_element_decl (decl : lx_decl) (m : option lx_content) : outcome str :=
  match m, decl with
  | Some c, _ => Val (lx_convert decl false c)
  | None, LxAnyDecl => Val (ascii_str "ANY")
  | None, _ => UB
  end.

(** The mode of an attribute declaration.  attListDeclaration, saxexpat.hpp:833-858: the
    default value and isrequired.  SAXattributeDecl, saxlibxml2.hpp:792-804: the default value
    and def, an xmlAttributeDefault, which counts from 1: none, required, implied, fixed. *)
Definition mode_name (required : bool) (default : option str) : str :=
  if required then match default with Some _ => ascii_str "#FIXED" | None => ascii_str "#REQUIRED" end
  else ascii_str "#IMPLIED".
Definition lx_mode_name (def : Z) (default : option str) : str := mode_name (negb (def =? 0)) default.

(** stringAttrEnum, saxlibxml2.hpp:854-870. *)
Fixpoint enum_names (l : list str) : str :=
  match l with
  | [] => []
  | [n] => n
  | n :: r => n ++ ascii_str " | " ++ enum_names r
  end.
Definition enum_text (leading_space : bool) (l : list str) : str :=
  (if leading_space then [32] else []) ++ [40] ++ enum_names l ++ [41].
