(** C10-C13: escaping, character classes, names, white space. *)
From Verif.Model Require Import Base Chars Text.
From Verif.Spec Require Import XmlChars TextSpec.
From Verif.Proof Require Import CharsProof TextProof.

(** C10. Expanding the references of the escaped text gives the text back. *)
Theorem C10_text_references : forall s,
  exists l, expand None (text_escape s) = Some l /\ map snd l = s.
Proof. exact content_references. Qed.
Print Assumptions C10_text_references.

Theorem C10_text_no_markup : forall s x, x = 60 \/ x = 62 -> ~ In x (text_escape s).
Proof. exact text_escape_no. Qed.
Print Assumptions C10_text_no_markup.

(** What a parser reads: the same text if it holds no carriage return. *)
Theorem C10_text_partial : forall s, ~ In 13 s -> read_content (text_escape s) = Some s.
Proof. exact content_roundtrip. Qed.
Print Assumptions C10_text_partial.

(** A carriage return is written raw and comes back as a line feed. *)
Theorem C10_text_refuted : exists s, read_content (text_escape s) <> Some s.
Proof. exists [97; 13; 98]. vm_compute. discriminate. Qed.
Print Assumptions C10_text_refuted.

(** Attribute values survive a parser's line-end and value normalisation. *)
Theorem C10_attribute : forall s, read_attribute (attribute_escape s) = Some s.
Proof. exact attribute_roundtrip. Qed.
Print Assumptions C10_attribute.

Theorem C10_attribute_no_markup : forall s x,
  In x [60; 62; 34; 9; 10; 13] -> ~ In x (attribute_escape s).
Proof. exact attr_escape_no. Qed.
Print Assumptions C10_attribute_no_markup.

Example C10_case :
  text_escape [97; 60; 38] = [97; 38; 108; 116; 59; 38; 97; 109; 112; 59]
  /\ read_attribute [97; 38; 35; 120; 68; 59; 9] = Some [97; 13; 32].
Proof. vm_compute. auto. Qed.

(** C11. Each predicate is the XML 1.0 production, for every code point. *)
Theorem C11_productions : forall c,
  (is_char c = true <-> among c Char)
  /\ (is_space c = true <-> among c White)
  /\ (is_base_char c = true <-> among c BaseChar)
  /\ (is_ideographic c = true <-> among c Ideographic)
  /\ (is_letter c = true <-> among c Letter)
  /\ (is_digit c = true <-> among c Digit)
  /\ (is_combining_char c = true <-> among c CombiningChar)
  /\ (is_extender c = true <-> among c Extender)
  /\ (is_name_char c = true <-> among c NameChar)
  /\ (is_ncname_char c = true <-> among c NCNameChar).
Proof.
  intros c. auto 12 using char_spec, space_spec, base_char_spec, ideographic_spec, letter_spec,
    digit_spec, combining_spec, extender_spec, name_char_spec, ncname_char_spec.
Qed.
Print Assumptions C11_productions.

Theorem C11_name_chars_are_chars : forall c,
  is_name_char c = true -> is_char c = true /\ is_space c = false.
Proof. exact name_char_is_char. Qed.
Print Assumptions C11_name_chars_are_chars.

Theorem C11_classes_disjoint : forall c,
  (is_letter c = true -> is_digit c = false /\ is_combining_char c = false /\ is_extender c = false)
  /\ (is_digit c = true -> is_combining_char c = false /\ is_extender c = false)
  /\ (is_combining_char c = true -> is_extender c = false)
  /\ (is_base_char c = true -> is_ideographic c = false).
Proof. exact classes_disjoint. Qed.
Print Assumptions C11_classes_disjoint.

Example C11_case : is_base_char 1111 = true /\ is_base_char 1117 = false
  /\ is_digit 1632 = true /\ is_extender 183 = true.
Proof. vm_compute. auto. Qed.

(** C12. *)
Theorem C12_accepts_qnames : forall s, is_qname s = true <-> QName s.
Proof. exact qname_spec. Qed.
Print Assumptions C12_accepts_qnames.

Theorem C12_rejects_others : forall s at_ m, parse_qname s at_ m = None <-> ~ QName s.
Proof. exact parse_qname_bad. Qed.
Print Assumptions C12_rejects_others.

Theorem C12_unprefixed : forall s at_ m, NCName s ->
  parse_qname s at_ m = Some (QN [] s (if at_ then [] else m []) s).
Proof. exact parse_qname_plain. Qed.
Print Assumptions C12_unprefixed.

Theorem C12_prefixed : forall p l at_ m, NCName p -> NCName l ->
  parse_qname (p ++ [58] ++ l) at_ m = Some (QN p l (m p) (p ++ [58] ++ l)).
Proof. exact parse_qname_prefixed. Qed.
Print Assumptions C12_prefixed.

(** Equality is by namespace and local name; the Clark form is as fine as that
    when local names hold no brace and URIs no closing brace. *)
Theorem C12_equality : forall a b,
  qname_eqb a b = true <-> q_local a = q_local b /\ q_uri a = q_uri b.
Proof. exact qname_eqb_spec. Qed.
Print Assumptions C12_equality.

Theorem C12_clark_names : forall a b,
  ~ In 123 (q_local a) -> ~ In 123 (q_local b) -> ~ In 125 (q_uri a) -> ~ In 125 (q_uri b) ->
  (clark_name a = clark_name b <-> q_local a = q_local b /\ q_uri a = q_uri b).
Proof. exact clark_faithful. Qed.
Print Assumptions C12_clark_names.

(** In a UTF-8 std::string the bytes of a non-ASCII letter are negative chars, so
    no such name is accepted: the QName of one letter e-acute is refused. *)
Theorem C12_utf8_names_refuted : forall s c, In c s -> c < 0 -> is_qname s = false.
Proof. exact qname_negative. Qed.
Print Assumptions C12_utf8_names_refuted.

Example C12_case :
  is_qname [120; 58; 233] = true /\ is_qname [120; 58; 195 - 256; 169 - 256] = false
  /\ is_qname [120; 58; 121; 58; 122] = false
  /\ parse_qname [120; 58; 121] true (fun p => p ++ [33])
     = Some (QN [120] [121] [120; 33] [120; 58; 121]).
Proof. vm_compute. auto. Qed.

(** C13. The in-place rewriting ends inside its buffer and gives the words joined
    by single spaces. *)
Theorem C13_is_normalize_space : forall s, normalize_whitespace s = Val (spaced (words s)).
Proof. exact normalize_whitespace_spec. Qed.
Print Assumptions C13_is_normalize_space.

Theorem C13_idempotent : forall s,
  normalize_whitespace (spaced (words s)) = Val (spaced (words s)).
Proof. exact normalize_twice. Qed.
Print Assumptions C13_idempotent.

Example C13_case :
  normalize_whitespace [32; 97; 10; 9; 98; 99; 32] = Val [97; 32; 98; 99].
Proof. reflexivity. Qed.
