(** Writing a DOM tree to a stream: include/DOM/io/Stream.hpp.

    A tree is given by what the node methods return: names (getNamespaceURI, getPrefix,
    getLocalName, getNodeName), values, attributes and children in order. *)
From Coq Require Import Decimal.
From Verif.Model Require Import Base Containers Text NsSupport.

Record dname := DName { d_uri : str; d_prefix : str; d_local : str; d_name : str }.
Inductive dtree :=
  | DElem (n : dname) (atts : list (dname * str)) (kids : list dtree)
  | DText (s : str) | DCData (s : str) | DComment (s : str) | DPI (t d : str)
  | DEntRef (name : str)
  | DDocType.

(** The stack of maps from namespace to prefix in the stream's pword, innermost first, and
    the number in its iword (a long, here unbounded). *)
Record pstack := PStack { p_maps : list (list (str * str)); p_next : nat }.
(** is_uri_declared, Stream.hpp:46-60. *)
Fixpoint is_uri_declared (maps : list (list (str * str))) (uri : str) : option str :=
  match maps with
  | [] => None
  | m :: r => match mm_find uri m with Some p => Some p | None => is_uri_declared r uri end
  end.
(** operator<< of a number *)
Fixpoint uint_digits (u : uint) : str :=
  match u with
  | Nil => []
  | D0 r => 48 :: uint_digits r | D1 r => 49 :: uint_digits r | D2 r => 50 :: uint_digits r
  | D3 r => 51 :: uint_digits r | D4 r => 52 :: uint_digits r | D5 r => 53 :: uint_digits r
  | D6 r => 54 :: uint_digits r | D7 r => 55 :: uint_digits r | D8 r => 56 :: uint_digits r
  | D9 r => 57 :: uint_digits r
  end.
Definition auto_prefix (n : nat) : str := 97 :: uint_digits (Nat.to_uint n).
Definition set_current (st : pstack) (uri prefix : str) (next : nat) : pstack :=
  match p_maps st with
  | m :: r => PStack (map_set uri prefix m :: r) next
  | [] => PStack [] next
  end.
Definition with_prefix (p l : str) : str := match p with [] => l | _ => p ++ [58] ++ l end.
(** check_and_output_node_name, Stream.hpp:62-93. *)
Definition node_name (st : pstack) (n : dname) (is_attribute : bool) : pstack * str :=
  match d_uri n with
  | [] => (st, d_name n)
  | _ =>
      match is_uri_declared (p_maps st) (d_uri n) with
      | Some p => (st, with_prefix p (d_local n))
      | None =>
          match d_prefix n with
          | [] => if is_attribute
                  then let p := auto_prefix (p_next st) in
                       (set_current st (d_uri n) p (S (p_next st)), with_prefix p (d_local n))
                  else (set_current st (d_uri n) [] (p_next st), d_local n)
          | p => (set_current st (d_uri n) p (p_next st), with_prefix p (d_local n))
          end
      end
  end.
Definition is_empty (s : str) : bool := match s with [] => true | _ => false end.
(** The attributes that are left out, Stream.hpp:177-180. *)
Definition skipped (n : dname) : bool :=
  is_empty (d_name n) || str_eqb (d_name n) s_xmlns || str_eqb (d_prefix n) s_xmlns.
(** The loop over the attributes, Stream.hpp:173-190. *)
Fixpoint stream_attrs (st : pstack) (atts : list (dname * str)) : pstack * str :=
  match atts with
  | [] => (st, [])
  | (n, v) :: r =>
      if skipped n then stream_attrs st r
      else
        let (st1, nm) := node_name st n true in
        let (st2, out) := stream_attrs st1 r in
        (st2, [32] ++ nm ++ [61; 34] ++ attribute_escape v ++ [34] ++ out)
  end.
(** The declarations, Stream.hpp:192-208. *)
Definition stream_decl (x : str * str) : str :=
  [32] ++ s_xmlns ++ (match snd x with [] => [] | p => 58 :: p end) ++ [61; 34] ++ attribute_escape (fst x) ++ [34].
Definition stream_decls (st : pstack) : str := match p_maps st with m :: _ => flat_map stream_decl m | [] => [] end.
(** streamCDATA, Stream.hpp:295-325.  [s] is the value from position [pos] on, [start] as in
    the code: substr has the end as its second argument, which is a length.  The code goes on
    looking two characters after a marker, here at the next: no marker starts in between. *)
Definition marker (s : str) : bool := match s with a :: b :: c :: _ => (a =? 93) && (b =? 93) && (c =? 62) | _ => false end.
Definition k_cdata_start : str := [60; 33; 91; 67; 68; 65; 84; 65; 91].
Definition k_cdata_end : str := [93; 93; 62].
Fixpoint cdata_rest (value : str) (start pos : nat) (s : str) : str :=
  match s with
  | [] => skipn start value
  | _ :: r =>
      if marker s
      then firstn (pos + 2) (skipn start value) ++ k_cdata_end ++ k_cdata_start ++ cdata_rest value (pos + 2) (S pos) r
      else cdata_rest value start (S pos) r
  end.
Definition stream_cdata (value : str) : str := k_cdata_start ++ cdata_rest value 0 0 value ++ k_cdata_end.
Definition pop (st : pstack) : pstack := PStack (tl (p_maps st)) (p_next st).
Section Stream.
(** std::sort by namespace and local name, Stream.hpp:114-124, 170-171: it need not keep
    the order of equal elements, so the order it makes is a parameter. *)
Variable ord : list (dname * str) -> list (dname * str).
(** operator<<, Stream.hpp:330-407, streamElement 246-267, streamChildren 235-243,
    prefix_mapper 126-211 and prefix_mapper_pop 213-231.  [above] is the map an element starts
    with: that of its ancestors for the first one written, otherwise empty. *)
Fixpoint stream_node (above : list (str * str)) (st : pstack) (t : dtree) : pstack * str :=
  match t with
  | DElem n atts kids =>
      let st0 := PStack (above :: p_maps st) (p_next st) in
      let (st1, nm) := node_name st0 n false in
      let (st2, out) := stream_attrs st1 (ord atts) in
      let start := [60] ++ nm ++ out ++ stream_decls st2 in
      match kids with
      | [] => (pop st2, start ++ [47; 62])
      | _ =>
          let (st3, body) := (fix go (st : pstack) (l : list dtree) : pstack * str :=
            match l with
            | [] => (st, [])
            | k :: r => let (st1, a) := stream_node [] st k in let (st2, b) := go st1 r in (st2, a ++ b)
            end) st2 kids in
          let (st4, nm2) := node_name st3 n false in
          (pop st4, start ++ [62] ++ body ++ [60; 47] ++ nm2 ++ [62])
      end
  | DText s => (st, text_escape s)
  | DEntRef n => (st, [38] ++ n ++ [59])
  | DCData s => (st, stream_cdata s)
  | DPI t d => (st, [60; 63] ++ t ++ [32] ++ d ++ [63; 62])
  | DComment s => (st, [60; 33; 45; 45] ++ s ++ [45; 45; 62])
  | DDocType => (st, [])
  end.
(** prefixes of the ancestors, nearest first, Stream.hpp:146-158. *)
Fixpoint ancestor_prefixes (anc : list dname) (m : list (str * str)) : list (str * str) :=
  match anc with
  | [] => m
  | a :: r =>
      ancestor_prefixes r (match d_uri a with
                           | [] => m
                           | u => match mm_find u m with Some _ => m | None => map_set u (d_prefix a) m end
                           end)
  end.
(** A node written on its own: each outermost element starts without a stack. *)
Definition stream_one (anc : list dname) (t : dtree) : str := snd (stream_node (ancestor_prefixes anc []) (PStack [] 0) t).
Definition k_declaration : str := (* <?xml version="1.0"?> and a line feed *)
  [60;63;120;109;108;32;118;101;114;115;105;111;110;61;34;49;46;48;34;63;62;10].
Definition stream_fragment (kids : list dtree) : str := flat_map (stream_one []) kids.
Definition stream_document (kids : list dtree) : str := k_declaration ++ stream_fragment kids.
End Stream.
