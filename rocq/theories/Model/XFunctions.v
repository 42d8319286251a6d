(** The functions that XSLT adds to XPath: include/XSLT/impl/xslt_functions.hpp, and how a call
    finds its function: FunctionHolder::createFunction (xpath_function_holder.hpp:143-172) and
    CompilationContext::resolveFunction (xslt_compilation_context.hpp:205-247).  key() is in
    XKeys.v. *)
From Coq Require Import String.
From Verif.Model Require Import Base Text Uri XNode XNodeSet XCompare XStep XSort XEval XParse XSheet.
From Coq Require Import List ZArith.
Import ListNotations.
Open Scope Z_scope.

(** * Finding the function *)
Inductive added := Document | Key | Current | GenerateId | SystemProperty | ElementAvailable | FunctionAvailable.
(** The classes, with the name of each and the numbers of arguments its constructor asks for. *)
Definition added_table : list (str * added) :=
  [(ascii_str "document", Document); (ascii_str "key", Key); (ascii_str "current", Current);
   (ascii_str "generate-id", GenerateId); (ascii_str "system-property", SystemProperty);
   (ascii_str "element-available", ElementAvailable); (ascii_str "function-available", FunctionAvailable)].
Definition added_arity (a : added) : nat * nat :=
  match a with
  | Document => (1, 2)
  | Key => (2, 2)
  | Current => (0, 0)
  | GenerateId => (0, 1)
  | SystemProperty | ElementAvailable | FunctionAvailable => (1, 1)
  end%nat.
Definition added_arity_ok (a : added) (n : nat) : bool :=
  (Nat.leb (fst (added_arity a)) n && Nat.leb n (snd (added_arity a)))%bool.
Fixpoint look_added (name : str) (l : list (str * added)) : option added :=
  match l with [] => None | (m, a) :: r => if str_eqb name m then Some a else look_added name r end.
(** A function that was made.  UndefinedFunction, xslt_functions.hpp:398-436, takes any number of
    arguments. *)
Inductive made := Standard (g : fn) | Added (a : added) | Undefined.
(** resolveFunction; null is [None].  [current] is current_allowed_. *)
Definition resolve_function (current : bool) (uri name : str) (n : nat) : answer (option made) :=
  match uri with
  | [] =>
      match look_added name added_table with
      | Some Current => if current then if added_arity_ok Current n then Got (Some (Added Current)) else Raises else Got None
      | Some a => if added_arity_ok a n then Got (Some (Added a)) else Raises
      | None => Got None
      end
  | _ => Got (Some Undefined)
  end.
(** createFunction, for a call with [n] arguments. *)
Definition make_function (current : bool) (uri name : str) (n : nat) : answer made :=
  match uri, look_function name function_table with
  | [], Some g => if arity_ok g n then Got (Standard g) else Raises
  | _, _ => andthen (resolve_function current uri name n) (fun o => match o with Some f => Got f | None => Raises end)
  end.

(** * Values *)
(** MapMapper, QName.hpp:20-41; parseQName throws a runtime_error. *)
Definition expand (namespaces : str -> option str) (name : str) : answer (str * str) :=
  match parse_qname name true (fun p => match namespaces p with Some u => u | None => [] end) with
  | Some q => Got (q_uri q, q_local q)
  | None => Raises
  end.
(** ElementAvailableFunction::doEvaluate, 311-347. *)
Definition xslt_names : list str :=
  map ascii_str ["apply-imports"; "apply-templates"; "attribute"; "call-template"; "choose"; "comment"; "copy"; "copy-of";
    "element"; "fallback"; "for-each"; "if"; "message"; "number"; "processing-instruction"; "text"; "value-of"; "variable"]%string.
Definition element_available (namespaces : str -> option str) (name : str) : answer bool :=
  andthen (expand namespaces name) (fun '(uri, local) =>
  if negb (str_eqb uri xslt_uri) && negb (empty uri) then Got false
  else Got (existsb (str_eqb local) xslt_names)).
(** validNames, xslt_compilation_context.hpp:249-270, and xpath_function_holder.hpp:36-43. *)
Definition valid_names : list (str * str) :=
  map (fun p => ([], fst p)) function_table ++
  map (fun s => ([], ascii_str s)) ["document"; "key"; "current"; "unparsed-entity-uri"; "generate-id"; "system-property";
    "element-available"; "function-available"]%string.
(** FunctionAvailableFunction::doEvaluate, 382-391. *)
Definition function_available (namespaces : str -> option str) (name : str) : answer bool :=
  andthen (expand namespaces name) (fun '(uri, local) =>
  Got (existsb (fun p => str_eqb (fst p) uri && str_eqb (snd p) local) valid_names)).
(** SystemPropertyFunction::doEvaluate, 264-279; xslt_constants.hpp:130-132, 228-230. *)
Definition system_property (name : str) : str :=
  if str_eqb name (ascii_str "xsl:version") then ascii_str "1.0"
  else if str_eqb name (ascii_str "xsl:vendor") then ascii_str "Jez Higgins, JezUK Ltd"
  else if str_eqb name (ascii_str "xsl:vendor-url") then ascii_str "http://www.jezuk.co.uk/arabica/"
  else [].
(** The text of a pointer: 0x and hexadecimal digits, or 0, as the GNU library writes it. *)
Definition digit (d : Z) : Z := if d <? 10 then 48 + d else 87 + d.
Fixpoint hex (fuel : nat) (n : Z) : str :=
  match fuel with
  | O => []
  | S fuel => (if n / 16 =? 0 then [] else hex fuel (n / 16)) ++ [digit (n mod 16)]
  end.
Definition pointer (n : Z) : str := if n =? 0 then [48] else 48 :: 120 :: hex (S (Z.to_nat (Z.log2 n))) n.
(** GenerateIdFunction::doEvaluate, 222-240, with the addresses of nodes. *)
Definition generate_id (k : env) (address : xnode -> Z) (args : list expression) : expression := fun x position last =>
  andthen (node_arg k args x position last) (fun o =>
  Got (VStr match o with None => [] | Some y => pointer (address y) end)).
(** CurrentFunction::doEvaluate, 163-169. *)
Definition current_node (current : xnode) : value := VSet (push_node current (new_set true)).

(** * document() *)
(** Documents by their location, None if errors are reported for it; those that have been loaded,
    which are the trees from [first] on.  DocumentFunction::doEvaluate and load_document, 41-73;
    the document of SAX2DOM::Parser is new. *)
Definition load_document (world : str -> option xtree) (first : nat) (base location : str) (loaded : list xtree)
  : outcome (option (list xtree * nodeset)) :=
  obind (Uri.parse base) (fun b =>
  obind (Uri.resolve b location) (fun o =>
  match o with
  | None => Val None
  | Some u =>
      match world (Uri.as_string u) with
      | None => Val (Some (loaded, new_set true))
      | Some t => Val (Some (loaded ++ [t], push_node ((first + length loaded)%nat, []) (new_set true)))
      end
  end)).
Definition document (world : str -> option xtree) (first : nat) (base : str) (args : list value) (loaded : list xtree)
  : answer (list xtree * nodeset) :=
  match args with
  | [VStr s] => andthen (lift (load_document world first base s loaded)) from_option
  | _ => Raises
  end.
(** Calls with one string, one after another. *)
Fixpoint documents_run (world : str -> option xtree) (first : nat) (base : str) (locations : list str) (loaded : list xtree)
  : answer (list xtree * list nodeset) :=
  match locations with
  | [] => Got (loaded, [])
  | s :: locations =>
      andthen (document world first base [VStr s] loaded) (fun '(loaded, n) =>
      andthen (documents_run world first base locations loaded) (fun '(loaded, l) => Got (loaded, n :: l)))
  end.
