(** Independent specification of the functions of XSLT 1.0 (section 12 and 15) and of which calls
    of functions there are (XPath 1.0, section 4). *)
From Coq Require Import String List ZArith.
Import ListNotations.
From Verif.Model Require Import Base XNode XCompare XStep XSort XSheet.
From Verif.Spec Require Import XmlChars.
Open Scope Z_scope.

(** A name as an expression reads it: names without prefix are in no namespace. *)
Definition reads (namespaces : str -> option str) (raw uri local : str) : Prop :=
  (NCName raw /\ local = raw /\ uri = []) \/
  (exists p, NCName p /\ NCName local /\ raw = p ++ [58] ++ local /\ namespaces p = Some uri).

(** The functions of XPath and XSLT with the least and the greatest number of arguments. *)
Definition functions : list (str * (nat * option nat)) :=
  map (fun '(s, least, most) => (ascii_str s, (least, most)))
  [("last", 0, Some 0); ("position", 0, Some 0); ("count", 1, Some 1); ("id", 1, Some 1);
   ("local-name", 0, Some 1); ("namespace-uri", 0, Some 1); ("name", 0, Some 1);
   ("string", 0, Some 1); ("concat", 2, None); ("starts-with", 2, Some 2); ("contains", 2, Some 2);
   ("substring-before", 2, Some 2); ("substring-after", 2, Some 2); ("substring", 2, Some 3);
   ("string-length", 0, Some 1); ("normalize-space", 0, Some 1); ("translate", 3, Some 3);
   ("boolean", 1, Some 1); ("not", 1, Some 1); ("true", 0, Some 0); ("false", 0, Some 0); ("lang", 1, Some 1);
   ("number", 0, Some 1); ("sum", 1, Some 1); ("floor", 1, Some 1); ("ceiling", 1, Some 1); ("round", 1, Some 1);
   ("document", 1, Some 2); ("key", 2, Some 2); ("format-number", 2, Some 3); ("current", 0, Some 0);
   ("unparsed-entity-uri", 1, Some 1); ("generate-id", 0, Some 1); ("system-property", 1, Some 1);
   ("element-available", 1, Some 1); ("function-available", 1, Some 1)]%string%nat.
Definition can_be_called (name : str) (n : nat) : Prop :=
  exists least most, In (name, (least, most)) functions /\ (least <= n)%nat /\ match most with Some m => (n <= m)%nat | None => True end.
(** Those that Arabica does not have. *)
Definition missing : list str := map ascii_str ["id"; "lang"; "format-number"; "unparsed-entity-uri"]%string.

(** That there is something to compile: an expression, an attribute value template and a name. *)
Definition able {scope X M N P} (V : services (scope := scope) (X := X) (M := M) (N := N) (P := P)) (current : bool) : Prop :=
  (exists sc s e, s <> [] /\ x_expr V sc current true s = Some e) /\
  (exists sc s e, s <> [] /\ x_avt V sc current s = Some e) /\
  (exists sc s n, s <> [] /\ x_name V sc s = Some n).

(** system-property. *)
Definition property (uri local : str) : str :=
  if list_eq_dec Z.eq_dec uri xslt_uri then
    if list_eq_dec Z.eq_dec local (ascii_str "version") then ascii_str "1.0"
    else if list_eq_dec Z.eq_dec local (ascii_str "vendor") then ascii_str "Jez Higgins, JezUK Ltd"
    else if list_eq_dec Z.eq_dec local (ascii_str "vendor-url") then ascii_str "http://www.jezuk.co.uk/arabica/"
    else []
  else [].

(** generate-id: ASCII letters and digits. *)
Definition alphanumeric (c : Z) : Prop := 48 <= c <= 57 \/ 65 <= c <= 90 \/ 97 <= c <= 122.
