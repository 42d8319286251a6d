{
 "claims": [
  {
   "property": "C01",
   "status": "partial",
   "theorems": [
    "C01_roundtrip_refuted",
    "C01_roundtrip_partial",
    "C01_loss_is_one_byte",
    "C01_several_writes_partial"
   ],
   "note": "Refuted in general: an input whose length is not a multiple of 3 and whose last byte is 0 loses that byte. Proved: exact characterisation of the inputs that round-trip."
  },
  {
   "property": "C02",
   "status": "partial",
   "theorems": [
    "C02_rfc4648_partial",
    "C02_rfc4648_refuted",
    "C02_decodes_rfc4648"
   ],
   "note": "Refuted for the same inputs as C01; proved for all others. The decoder is proved to accept every RFC 4648 encoding."
  },
  {
   "property": "C03",
   "status": "proved",
   "theorems": [
    "C03_output_buffers",
    "C03_input_pieces",
    "C03_decoder_resumes",
    "C03_decoder_reports"
   ],
   "note": "Every output buffer sequence and every input cutting."
  },
  {
   "property": "C04",
   "status": "proved",
   "theorems": [
    "C04_rotates_letters",
    "C04_twice_is_identity"
   ],
   "note": "Both directions are the same function; every capacity."
  },
  {
   "property": "C05",
   "status": "proved",
   "theorems": [
    "C05_latin1_encodes",
    "C05_latin1_encodes_all",
    "C05_latin1_decodes",
    "C05_others_replaced"
   ],
   "note": "Encoding and decoding, every sequence of buffers. Any run of buffers with at least four places finishes."
  },
  {
   "property": "C06",
   "status": "partial",
   "theorems": [
    "C06_roundtrip_refuted",
    "C06_encodes_partial",
    "C06_roundtrip_partial"
   ],
   "note": "Refuted above U+FFFF (the unit is dropped silently); proved for 0..65535."
  },
  {
   "property": "C07",
   "status": "proved",
   "theorems": [
    "C07_writes_utf16",
    "C07_several_buffers",
    "C07_reads_back"
   ],
   "note": "Both byte orders."
  },
  {
   "property": "C08",
   "status": "partial",
   "theorems": [
    "C08_latin1_in_bounds_refuted",
    "C08_latin1_in_bounds_partial",
    "C08_ucs2_in_bounds"
   ],
   "note": "UCS-2 decoder: proved for every byte string. Latin-1 decoder: refuted on a truncated sequence, proved on well-formed UTF-8."
  },
  {
   "property": "C09",
   "status": "partial",
   "theorems": [
    "C09_terminates_refuted",
    "C09_utf8_in_range",
    "C09_latin1_partial",
    "C09_counts_everything_refuted",
    "C09_in_range_refuted",
    "C09_wide_in_range"
   ],
   "note": "Refuted: the UTF-8 query hangs on a stray continuation byte, and the rot13 and UTF-16 queries report more than is available. Proved: range when it ends, termination on Latin-1 text, wide facets."
  },
  {
   "property": "C10",
   "status": "partial",
   "theorems": [
    "C10_text_references",
    "C10_text_no_markup",
    "C10_text_partial",
    "C10_text_refuted",
    "C10_attribute",
    "C10_attribute_no_markup"
   ],
   "note": "Attribute values: proved. Text: proved for every string when only references are expanded, and against a full parser for text without carriage returns; refuted with one (it is written raw and read back as a line feed)."
  },
  {
   "property": "C11",
   "status": "proved",
   "theorems": [
    "C11_productions",
    "C11_name_chars_are_chars",
    "C11_classes_disjoint"
   ],
   "note": "For every integer code point, all ten predicates."
  },
  {
   "property": "C12",
   "status": "proved",
   "theorems": [
    "C12_accepts_qnames",
    "C12_rejects_others",
    "C12_unprefixed",
    "C12_prefixed",
    "C12_equality",
    "C12_clark_names",
    "C12_utf8_names_refuted"
   ],
   "note": "Stated on code points. C12_utf8_names_refuted records that a UTF-8 std::string with non-ASCII letters is never accepted."
  },
  {
   "property": "C13",
   "status": "proved",
   "theorems": [
    "C13_is_normalize_space",
    "C13_idempotent"
   ],
   "note": "The in-place algorithm is modelled with its shared buffer."
  },
  {
   "property": "C14",
   "status": "partial",
   "theorems": [
    "C14_roundtrip_refuted",
    "C14_roundtrip_partial",
    "C14_parse_total_refuted",
    "C14_port"
   ],
   "note": "The full claim is false (drive paths, empty authority, UB on 'http:'); the exact class of URIs that survive printing is characterised."
  },
  {
   "property": "C15",
   "status": "partial",
   "theorems": [
    "C15_resolves_segments",
    "C15_rfc3986_partial",
    "C15_rfc3986_refuted",
    "C15_never_fails_refuted",
    "C15_absolute",
    "C15_other_scheme",
    "C15_rooted",
    "C15_empty"
   ],
   "note": "Result computed for every rooted base and every reference of segments; RFC 3986 when no '..' follows '.' and the reference ends in a name; refutations for the rest; base without a path is UB."
  },
  {
   "property": "C16",
   "status": "partial",
   "theorems": [
    "C16_scoped_partial",
    "C16_scoped_refuted",
    "C16_first_declaration",
    "C16_leaving_restores",
    "C16_xml_bound",
    "C16_tracker_scoped",
    "C16_in_scope_map"
   ],
   "note": "Scoped-dictionary semantics for histories without a second declaration of a prefix in one context (refuted otherwise); first-declaration semantics, restoration on leaving, and the tracking filter proved for all histories."
  },
  {
   "property": "C17",
   "status": "partial",
   "theorems": [
    "C17_prefix_usable_partial",
    "C17_prefix_usable_refuted",
    "C17_nonempty_prefix_refuted",
    "C17_prefixes"
   ],
   "note": "Holds when no in-scope prefix is redeclared; refuted for shadowed prefixes and for the documented 'never the empty prefix'."
  },
  {
   "property": "C18",
   "status": "partial",
   "theorems": [
    "C18_base_support_partial",
    "C18_leaving_restores_partial",
    "C18_tracker_refuted",
    "C18_always_defined_refuted"
   ],
   "note": "XMLBaseSupport proved against the XML Base rule for all nested event runs whose references resolve; refuted for the XMLBaseTracker filter (lazy location) and for definedness."
  },
  {
   "property": "C19",
   "status": "proved",
   "theorems": [
    "C19_index_first",
    "C19_index_qname_first",
    "C19_fields_by_name",
    "C19_rejection",
    "C19_modification",
    "C19_removal",
    "C19_replace_is_map",
    "C19_copy",
    "C19_copy_self_refuted"
   ],
   "note": "First-match look-up, positional stability, rejection, finite-map behaviour of addOrReplace, copy; copying a list onto itself empties it (refuted separately)."
  },
  {
   "property": "C20",
   "status": "partial",
   "theorems": [
    "C20_no_adjacent_text",
    "C20_text_kept_partial",
    "C20_other_events_kept",
    "C20_merged_partial",
    "C20_place_refuted",
    "C20_loss_refuted"
   ],
   "note": "No adjacent text and all other events kept: proved for all sequences. Merging proved when each text run is followed by a flushing event; refuted for skipped entities (text moves) and text before the end of the document (lost)."
  },
  {
   "property": "C21",
   "status": "proved",
   "theorems": [
    "C21_stripped",
    "C21_visible_kept",
    "C21_chunking_refuted"
   ],
   "note": "Exact output for all event sequences; dependence on chunking shown separately."
  },
  {
   "property": "C22",
   "status": "partial",
   "theorems": [
    "C22_exact_partial",
    "C22_indented_partial",
    "C22_names",
    "C22_external_subset",
    "C22_skipped",
    "C22_skipped_parameter_refuted",
    "C22_cdata_refuted",
    "C22_comment_refuted",
    "C22_carriage_return_refuted",
    "C22_mismatch_unnoticed",
    "C22_indent_adds_text_refuted"
   ],
   "note": "Round trip through an independent XML reader for all well-nested sequences XML can express, exact for indent 0 and up to white space for any indent; refuted for ']]>' in CDATA, '--' in comments, CR in text. DTD output is modelled but not read back."
  },
  {
   "property": "C23",
   "status": "partial",
   "theorems": [
    "C23_reads_back_partial",
    "C23_injective_partial",
    "C23_text_refuted",
    "C23_instruction_refuted",
    "C23_namespaces_refuted"
   ],
   "note": "Injective up to what PYX records, for names without white space, text without backslash and one-line instructions; refuted otherwise."
  },
  {
   "property": "C24",
   "status": "partial",
   "theorems": [
    "C24_links_partial",
    "C24_document_in_itself_refuted",
    "C24_fragment_in_itself_refuted",
    "C24_insert_effect",
    "C24_replace_effect",
    "C24_remove_effect",
    "C24_fragment_effect",
    "C24_texts_partial",
    "C24_attributes_partial"
   ],
   "note": "Proved for every history in which no document and no fragment is inserted into itself (tree sound, all calls return), with the exact effect of each call; the tree stays sound over splitText and normalize too (C24_texts_partial), and over normalize with attributes (C24_attributes_partial). Refuted otherwise: a document can be appended to itself; appending a non-empty fragment to itself never returns."
  },
  {
   "property": "C25",
   "status": "partial",
   "theorems": [
    "C25_remove_atomic",
    "C25_insert_atomic_partial",
    "C25_append_atomic_partial",
    "C25_replace_atomic_partial",
    "C25_insert_refuted",
    "C25_insert_before_itself_refuted",
    "C25_replace_by_itself_refuted",
    "C25_fragment_refuted"
   ],
   "note": "removeChild is atomic. insertBefore, appendChild and replaceChild are atomic for a single node and a reference that is a child; refuted for a reference that is no child, for the node itself as reference, and for fragments."
  },
  {
   "property": "C26",
   "status": "partial",
   "theorems": [
    "C26_document_partial",
    "C26_stale_root_refuted",
    "C26_stale_doctype_refuted",
    "C26_two_doctypes_refuted",
    "C26_unknown_doctype_refuted"
   ],
   "note": "Proved for histories in which replaceChild on a document neither offers nor replaces a doctype and replaces the root by an element only. Refuted otherwise (stale root, stale doctype, two doctypes, unknown doctype)."
  },
  {
   "property": "C27",
   "status": "partial",
   "theorems": [
    "C27_one_owner",
    "C27_set_reply",
    "C27_set_get",
    "C27_set_get_ns",
    "C27_level1_partial",
    "C27_level1_names_partial",
    "C27_level2_names_partial",
    "C27_stale_value_refuted",
    "C27_same_name_refuted",
    "C27_prefix_same_name_refuted",
    "C27_node_ns_level1_refuted",
    "C27_defaults_refuted",
    "C27_remove_node_refuted",
    "C27_wrong_document_refuted"
   ],
   "note": "For all histories: one owner per attribute, setAttribute/getAttribute. DOM Level 1 histories refine an abstract map; Level 2 histories keep (namespace, local name) distinct. Missing: entity references in attribute values, ID table. Refuted: stale cached value, equal names with mixed or re-prefixed attributes, setAttributeNodeNS with a Level 1 attribute, two declared defaults, removeAttributeNode of a replaced attribute, attribute of another document."
  },
  {
   "property": "C28",
   "status": "proved",
   "theorems": [
    "C28_substring",
    "C28_replace",
    "C28_delete",
    "C28_insert",
    "C28_append",
    "C28_replaced_unique"
   ],
   "note": "All five calls, on every node whose data is shorter than 2^31 characters, against a specification by cutting the string; also the read-only case."
  },
  {
   "property": "C29",
   "status": "partial",
   "theorems": [
    "C29_split",
    "C29_split_succeeds",
    "C29_split_atomic",
    "C29_normalize",
    "C29_normalize_twice",
    "C29_normalize_ends",
    "C29_normalize_raises",
    "C29_split_cdata_refuted",
    "C29_attributes",
    "C29_attributes_end",
    "C29_attributes_twice",
    "C29_attributes_raises",
    "C29_attributes_succeeds"
   ],
   "note": "splitText of a node in a tree and normalize, after any history; both shown to end, to succeed where nothing is read-only, and splitText to change nothing when it raises. normalize with the attributes of the node and of the elements below, in the order of the code (C29_attributes and its companions), leaves all of them normal and the rest alone, ends, changes nothing the second time and raises only where something is read-only; which nodes are attributes of which is given by a map beside the tree. Refuted: splitting a CDATA section without a parent dereferences a null pointer."
  },
  {
   "property": "C30",
   "status": "partial",
   "theorems": [
    "C30_length_partial",
    "C30_item_partial",
    "C30_unique",
    "C30_ends",
    "C30_item_misses_refuted",
    "C30_item_out_of_range_refuted",
    "C30_rename_refuted"
   ],
   "note": "getLength always agrees with the document after any history of child list, data, splitText and normalize calls; item agrees after getLength. Refuted: item before getLength (bound of the old list, out-of-range read) and setPrefix (no change counted)."
  },
  {
   "property": "C31",
   "status": "partial",
   "theorems": [
    "C31_next_node_partial",
    "C31_next_from_partial",
    "C31_what_to_show",
    "C31_view_exists",
    "C31_view_unique",
    "C31_first_child_partial",
    "C31_last_child_partial",
    "C31_previous_sibling_partial",
    "C31_parent_partial",
    "C31_next_sibling_refuted",
    "C31_next_sibling_backwards",
    "C31_previous_node_refuted",
    "C31_previous_node_deep_refuted",
    "C31_parent_root_refuted",
    "C31_closed_reference_refuted",
    "C31_first_child_skipped_refuted"
   ],
   "note": "nextNode from the root visits exactly the visible nodes in document order, once each, then stays; firstChild, lastChild, previousSibling from any node of the view, parentNode below the root; the view exists, is unique and duplicate-free. Hypothesis: no skipped unexpanded entity reference has children. Refuted: nextSibling goes backwards (proved on every tree), previousNode (two ways), parentNode to the root, closed entity reference ends the tour, firstChild from a skipped node."
  },
  {
   "property": "C32",
   "status": "partial",
   "theorems": [
    "C32_lineage",
    "C32_flow_partial",
    "C32_stop_at_target_refuted",
    "C32_stop_not_cancelable_refuted",
    "C32_default_prevented_refuted",
    "C32_wrong_type_refuted",
    "C32_added_while_visiting_refuted",
    "C32_removes_itself_refuted",
    "C32_remove_second_refuted",
    "C32_remove_partial",
    "C32_sent_again_refuted"
   ],
   "note": "Flow proved for all trees, tables and history-dependent listeners of a cancelable event, when listeners do not change the list being called, do not remove, and do not stop at the target; listeners added for nodes still to come are called. Removal characterised for all tables. Missing: nested dispatch, listeners changing the tree. Refuted: stop at target, stop when not cancelable, preventDefault result, listener of another type called, listener added during a visit called, self-removal undefined, removal of a later listener, stopped event sent again."
  },
  {
   "property": "C33",
   "status": "partial",
   "theorems": [
    "C33_handles_partial",
    "C33_self_assignment",
    "C33_self_refuted",
    "C33_type_map_refuted",
    "C33_type_map_gone_refuted"
   ],
   "note": "For every sequence of constructions, copies, assignments, destructions and document type adoptions: no deleted object is touched, whatever a handle refers to is alive, and an object is deleted exactly when its keeper has been referred to and no handle holds it any more. Excluded and refuted: assigning the last handle to itself (deletes, then reuses the object), and handles on the entities/notations of a document type that has no document yet (uncounted, later release the document once too often)."
  },
  {
   "property": "C34",
   "status": "partial",
   "theorems": [
    "C34_node_partial",
    "C34_document_partial",
    "C34_tags",
    "C34_attribute_refuted",
    "C34_undeclare_refuted",
    "C34_prefix_refuted",
    "C34_shadow_refuted",
    "C34_cdata_refuted",
    "C34_comment_refuted",
    "C34_level_one_refuted"
   ],
   "note": "C34_node_partial and C34_document_partial: the text written for a node (inside any ancestors) or document is accepted by the reader and, after namespace resolution, gives exactly the tree's tokens (attributes up to order), for every order std::sort may choose; hypotheses: one prefix per namespace and conversely, no unprefixed no-namespace elements along with a default namespace, names are names, no double hyphen / PI end / second CDATA marker, no entity references. C34_tags holds for every tree. Each hypothesis has a refutation: attribute in default namespace loses it, missing xmlns=\"\", prefix declared twice, shadowed prefix, CDATA with two markers duplicated, comment/PI/entity reference unescaped, undeclared level-1 prefix."
  },
  {
   "property": "C35",
   "status": "partial",
   "theorems": [
    "C35_mirror_partial",
    "C35_nested_entity_refuted",
    "C35_doubled_entity_refuted",
    "C35_comment_in_type_refuted",
    "C35_empty_cdata_refuted",
    "C35_second_parse_refuted",
    "C35_null_refuted"
   ],
   "note": "Every document whose events contain no entities except skipped ones, nothing node-making inside the document type and no empty CDATA section is built, from any parser state, into a tree whose walk gives the events back. Refuted: nested entities, comments and PIs in the internal subset, empty CDATA sections, parser reuse with entities, null dereference after an error."
  },
  {
   "property": "C36",
   "status": "partial",
   "theorems": [
    "C36_document_order_partial",
    "C36_each_once_partial",
    "C36_total_order_partial",
    "C36_many_attributes_refuted",
    "C36_attribute_after_child_refuted",
    "C36_fragments_refuted",
    "C36_namespace_nodes_refuted"
   ],
   "note": "compareNodes decides document order, and is a strict total order across documents, for elements with at most 999 attributes and nodes with at most 2147483 children. Refuted beyond that, for two trees of one document outside it, and for namespace nodes."
  },
  {
   "property": "C37",
   "status": "partial",
   "theorems": [
    "C37_axes_partial",
    "C37_partition_partial",
    "C37_each_once",
    "C37_preceding_split_text_refuted",
    "C37_following_in_fragment_refuted",
    "C37_attribute_child_refuted",
    "C37_namespace_refuted"
   ],
   "note": "All axes but namespace give exactly their nodes in the right order, for every document (C37_axes_partial); self, ancestors, descendants, following and preceding share out the document. Refuted: preceding axis with adjacent text nodes (duplicates), following axis outside a document (null pointer), child axis of an attribute, hidden declarations on the namespace axis."
  },
  {
   "property": "C38",
   "status": "partial",
   "theorems": [
    "C38_sets_partial",
    "C38_each_once_partial",
    "C38_union_partial",
    "C38_first_node_partial",
    "C38_string_value_partial",
    "C38_union_with_empty_refuted",
    "C38_union_of_namespaces_refuted",
    "C38_entity_reference_refuted"
   ],
   "note": "Node sets: any sequence of operations keeps exactly the nodes added; sorted sets are in document (or reverse) order with each node once; union, first node and string values as specified, for nodes of documents within the limits of C36 and any std::sort meeting its contract. Refuted: union with an empty side is not put in document order; namespace nodes are kept twice; entity references have no string value."
  },
  {
   "property": "C39",
   "status": "partial",
   "theorems": [
    "C39_comparisons_partial",
    "C39_empty_set_refuted",
    "C39_boolean_refuted"
   ],
   "note": "All six operators on all pairs of values follow XPath 1.0 section 3.4, for any number reading of strings, NaN included. Left out and refuted: relational comparison of two sets when one is empty (reads past the end), and of a set with a boolean (not compared as booleans)."
  },
  {
   "property": "C40",
   "status": "partial",
   "theorems": [
    "C40_predicates",
    "C40_number",
    "C40_last",
    "C40_path_partial",
    "C40_attribute_text_refuted"
   ],
   "note": "Predicates, for any expressions: exact positions and sizes (C40_predicates, an iff), [k] and [last()]. C40_path_partial: a location path with any predicates gives exactly the nodes of XPath 1.0, sorted, each once, in one document; not covered: the namespace axis, more than one document, fragments. Refuted: the child axis of an attribute gives its DOM text."
  },
  {
   "property": "C41",
   "status": "partial",
   "theorems": [
    "C41_starts_with",
    "C41_contains",
    "C41_substring_before",
    "C41_substring_after",
    "C41_concat",
    "C41_string_length",
    "C41_translate_partial",
    "C41_one_translation",
    "C41_translate_refuted",
    "C41_substring_partial",
    "C41_substring_rest_partial",
    "C41_substring_nan",
    "C41_substring_throws_refuted",
    "C41_substring_undefined_refuted",
    "C41_substring_minus_infinity_refuted"
   ],
   "note": "starts-with, contains, substring-before, substring-after, concat and string-length are proved for all arguments. substring is proved for finite rounded arguments below 2^52 whose start is within the string, and for NaN; it throws for a start past the end, is undefined for an infinite start and empty from minus infinity. translate is proved when only characters of its second argument follow a removed one, and refuted otherwise."
  },
  {
   "property": "C42",
   "status": "partial",
   "theorems": [
    "C42_round_partial",
    "C42_one_closest",
    "C42_round_others",
    "C42_negative_zero_partial",
    "C42_round_below_half_refuted",
    "C42_round_odd_refuted",
    "C42_round_minus_half_refuted",
    "C42_mod_partial",
    "C42_mod_nan",
    "C42_mod_undefined_refuted",
    "C42_mod_infinity_refuted",
    "C42_mod_fraction_refuted",
    "C42_mod_zero_sign_refuted"
   ],
   "note": "Round gives the closest integer, the greater of two, for every finite double except 0.49999999999999994 and the odd integers between 2^52 and 2^53 (refuted there; -0.5 gives +0). mod is the truncating remainder for integers fitting a long with a divisor up to 2^53; refuted for fractions, zero, infinite operands (undefined behaviour) and the sign of zero."
  },
  {
   "property": "C43",
   "status": "partial",
   "theorems": [
    "C43_scoping_partial",
    "C43_one_result",
    "C43_transform_partial",
    "C43_names",
    "C43_leak_refuted",
    "C43_siblings_refuted",
    "C43_with_param_refuted"
   ],
   "note": "Variable and parameter scoping refines a lexical semantics (C43_scoping_partial, both directions) for templates without variables directly in xsl:copy/comment/processing-instruction/message and without templates applied in a later xsl:with-param; outside that it is refuted (C43_leak_refuted, C43_siblings_refuted, C43_with_param_refuted)."
  },
  {
   "property": "C44",
   "status": "proved",
   "theorems": [
    "C44_irreflexive",
    "C44_transitive",
    "C44_total",
    "C44_greater",
    "C44_equal",
    "C44_compiled",
    "C44_distinct",
    "C44_rising",
    "C44_importing",
    "C44_later",
    "C44_imported"
   ],
   "note": "For import trees of any shape: the precedences given, their total order, that an importing stylesheet beats all it imports and a later import an earlier one with all below it. Fewer than 2^31 imports in one stylesheet."
  },
  {
   "property": "C45",
   "status": "partial",
   "theorems": [
    "C45_apply_templates",
    "C45_apply_imports",
    "C45_call_template",
    "C45_loads",
    "C45_priority",
    "C45_nan_priority_refuted"
   ],
   "note": "Which template is chosen is proved for every import tree, node and mode, for apply-templates, apply-imports and call-template. Refuted: priority='nan' gives undefined behaviour in the sort. Matching of a pattern is a parameter; the generation used by apply-imports is given."
  },
  {
   "property": "C46",
   "status": "partial",
   "theorems": [
    "C46_strict_weak",
    "C46_sort_partial",
    "C46_stable_partial",
    "C46_no_sort",
    "C46_invalid",
    "C46_reverse_axis_refuted",
    "C46_position_refuted"
   ],
   "note": "The comparison is a strict weak order for all keys; sorting gives a permutation in the order of the keys, the rest in document order, for nodes in document order and keys that do not use position() or last(). Refuted: nodes from a reverse axis keep reverse document order among equal keys; position() in a key is always 1. lang and case-order have no effect. The values of a key are given as functions."
  },
  {
   "property": "C47",
   "status": "proved",
   "theorems": [
    "C47_comment",
    "C47_pi",
    "C47_result"
   ],
   "note": "For every text the comment or processing instruction written is well formed and is the text with spaces put in, the escaping loops end, and so every comment and processing instruction of the result of any instructions is well formed."
  },
  {
   "property": "C48",
   "status": "partial",
   "theorems": [
    "C48_balanced",
    "C48_content",
    "C48_text_partial",
    "C48_names_partial",
    "C48_no_namespace_refuted",
    "C48_shadowed_refuted",
    "C48_attributes_refuted",
    "C48_copies_refuted",
    "C48_text_refuted"
   ],
   "note": "Proved for all instruction sequences: nesting, matching ends, closed CDATA sections, no undefined behaviour, and that the nodes of the result are those the instructions make. Names, declarations and attributes are proved right when each prefix has one meaning, nothing without namespace is below a default namespace and no attribute is copied; refuted without each of these. Text method proved without CDATA elements and refuted with them."
  },
  {
   "property": "C49",
   "status": "partial",
   "theorems": [
    "C49_calls_partial",
    "C49_attributes_refuted",
    "C49_string_use_refuted",
    "C49_twice_refuted",
    "C49_document_refuted",
    "C49_after_error_refuted"
   ],
   "note": "calls_partial: for any history of key() calls, the good ones give exactly the nodes of the key in document order. Refuted: attribute nodes, use expressions that give no node set, equal use values (node twice), context node in another document, and the calls after one that failed."
  },
  {
   "property": "C50",
   "status": "partial",
   "theorems": [
    "C50_document",
    "C50_balanced",
    "C50_doctype_refuted",
    "C50_locator_refuted",
    "C50_ignorable_refuted",
    "C50_empty_script_refuted",
    "C50_cdata_refuted"
   ],
   "note": "Proved for every input, features, buffer capacity and earlier parse: the parse terminates without undefined behaviour and the events form one document, elements nested and closed. Refuted: a document type is reported inside an element; the locator comes after startDocument; ignorable white space outside the document element; <script/> makes the following markup text; a CDATA section ending in a bracket swallows the rest."
  },
  {
   "property": "C51",
   "status": "partial",
   "theorems": [
    "C51_child_kinds_partial",
    "C51_doctype_in_element_refuted"
   ],
   "note": "Proved for histories that offer document types to documents only; refuted otherwise: an element accepts an ownerless doctype."
  },
  {
   "property": "C52",
   "status": "partial",
   "theorems": [
    "C52_one_owner_partial",
    "C52_doctype_refuted",
    "C52_split_text_leaks_refuted",
    "C52_texts_partial",
    "C52_attributes_partial"
   ],
   "note": "Proved for all nodes other than documents and doctypes, after any history of child list and data changes, splitText on nodes with a parent, and normalize (C52_texts_partial), with attributes in C52_attributes_partial. Refuted for a doctype whose insertion failed, and for splitText on a text without a parent, whose second half nothing deletes."
  },
  {
   "property": "C53",
   "status": "partial",
   "theorems": [
    "C53_evaluate_partial",
    "C53_ends_partial",
    "C53_ends_refuted"
   ],
   "note": "C53_evaluate_partial: by induction over the expression, every value that evaluation gives is the value of the independent relational semantics (operators, 25 core functions, variables, paths, predicates). Restricted to one document without NULs, DOM fragments or namespaced PIs, and to steps as in C40; comparisons, round, mod, substring and translate are as settled in C39, C41, C42. Text/number conversion is a parameter. C53_ends_partial: evaluation of any tame expression ends with a value or an exception, never in undefined behaviour or an endless walk; left out are substring(), mod other than of position(), last(), count() or a literal by a literal, and <, >, <=, >= between two node sets. C53_ends_refuted: 1 mod 0, substring with a start no int holds, and < with an empty node set are undefined behaviour. Not covered: which evaluations raise."
  },
  {
   "property": "C54",
   "status": "partial",
   "theorems": [
    "C54_precedence",
    "C54_clash",
    "C54_set",
    "C54_not_set",
    "C54_value_partial",
    "C54_reported_partial",
    "C54_no_value_if_circular",
    "C54_selects",
    "C54_endless_refuted",
    "C54_set_refuted"
   ],
   "note": "Precedence, set parameters, values and reporting of cycles proved for variables with select expressions; with content a cycle may run for ever (C54_endless_refuted), and setting a parameter that two stylesheets declare fails (C54_set_refuted)."
  },
  {
   "property": "C55",
   "status": "partial",
   "theorems": [
    "C55_names",
    "C55_default_namespace_refuted",
    "C55_xmlns_refuted"
   ],
   "note": "Names, attributes and prefix declarations are proved for every input (the declarations within the document grammar of C50_document). Refuted: the default namespace of unprefixed elements is never declared; the prefix xmlns is."
  },
  {
   "property": "C56",
   "status": "partial",
   "theorems": [
    "C56_text_partial",
    "C56_named_refuted",
    "C56_numeric_refuted",
    "C56_control_refuted",
    "C56_capacity_refuted"
   ],
   "note": "Proved for text (any bytes but markup) with references to ASCII characters, by name, decimal or hexadecimal, not beginning with white space. Refuted: named references beyond ASCII are lost, numeric ones are cut to their low byte, a zero low byte loses the text behind it, and leading white space depends on the buffer's capacity."
  },
  {
   "property": "C57",
   "status": "partial",
   "theorems": [
    "C57_name_partial",
    "C57_once",
    "C57_again_refuted",
    "C57_system_refuted",
    "C57_case_refuted"
   ],
   "note": "Proved for declarations with only a name, and that at most one is reported. Refuted: identifiers are not reported and SYSTEM or PUBLIC becomes part of the name; the keyword is case sensitive; a parser's later parses report none."
  },
  {
   "property": "C58",
   "status": "partial",
   "theorems": [
    "C58_markup",
    "C58_before_refuted"
   ],
   "note": "Proved for every byte sequence: comments and instructions reported are legal XML. Refuted: text before a comment can end up in it."
  },
  {
   "property": "C59",
   "status": "partial",
   "theorems": [
    "C59_exact_partial",
    "C59_indented_partial",
    "C59_text",
    "C59_result_partial",
    "C59_doctype_comment_refuted",
    "C59_doctype_omitted_refuted",
    "C59_cdata_twice_refuted",
    "C59_cdata_across_refuted",
    "C59_carriage_return_refuted",
    "C59_system_quote_refuted",
    "C59_indent_mixed_refuted"
   ],
   "note": "From the instructions to the reader: the text of a result, with names resolved, gives the tree the instructions made (consistent prefixes, no carriage returns, no disabled escaping; C59_result_partial); for any events, declaration, document type and nodes read back, with indentation up to white space. Refuted: document type lost after a comment or without declaration, CDATA text doubled or cut, carriage return, quote in a system identifier, indentation of mixed content."
  },
  {
   "property": "C60",
   "status": "partial",
   "theorems": [
    "C60_follows_partial",
    "C60_complete_partial",
    "C60_one_result",
    "C60_ends_partial",
    "C60_position_refuted",
    "C60_current_refuted",
    "C60_doctype_refuted",
    "C60_attribute_refuted",
    "C60_imports_refuted",
    "C60_imports_for_each_refuted"
   ],
   "note": "Soundness and completeness with respect to an inductive specification of XSLT instantiation (which gives one result at most), for documents without document types and stylesheets whose items do not look at position(), current() or the current template rule after other nodes were processed; termination if templates are only applied further down. Refuted otherwise: position() and current() are not restored after xsl:for-each, xsl:apply-imports after xsl:apply-templates looks in the wrong stylesheet, xsl:apply-imports in xsl:for-each is not reported, document type nodes count as children, attributes have children. Variables and the text of messages are not part of it."
  },
  {
   "property": "C61",
   "status": "partial",
   "theorems": [
    "C61_match_partial",
    "C61_alternatives_partial",
    "C61_descendant_refuted",
    "C61_attribute_position_refuted",
    "C61_variable_refuted",
    "C61_hidden_position_refuted"
   ],
   "note": "Equivalence with XSLT 5.2, with an answer always given, for patterns whose predicates have values at all nodes, pick by position openly (a number, or position() or last() as an operand) or not at all, and on attributes not at all, with // only between steps that fit different nodes. Refuted otherwise: a//a matches an a with no a above it, @n[1] never matches, a[$v] with a number in v and a[not(position() = 1)] take no notice of the position. The patterns id() and key() are not modelled."
  },
  {
   "property": "C62",
   "status": "partial",
   "theorems": [
    "C62_compile_partial",
    "C62_unambiguous",
    "C62_meaning_partial",
    "C62_whole_words_refuted",
    "C62_white_space_refuted",
    "C62_root_in_brackets_refuted",
    "C62_arguments_refuted"
   ],
   "note": "Proved for every text derived by an inductive grammar of XPath 1.0 expressions: it compiles to its expression (C62_compile_partial), and the value of what was compiled is the value of what was written (C62_meaning_partial, for the documents and paths of C53). Left out: names beyond ASCII, id() and lang(), white space in the places the refutations are about, the root in parentheses at the beginning of a path, a processing-instruction() test followed by a literal argument. Relative paths in parentheses at the beginning of a path are dissolved into it. Refuted: operator names are not read as whole words, white space matters in places, (/)/a is read as a, arguments are not read each by itself."
  },
  {
   "property": "C63",
   "status": "partial",
   "theorems": [
    "C63_value_partial",
    "C63_stray_brace",
    "C63_empty_refuted"
   ],
   "note": "Values proved for every template of the derivable expressions of C62 (where evaluation gives a value, documents as in C53); a stray right brace is rejected. Refuted: the empty template (<a href=\"\">) is a syntax error."
  },
  {
   "property": "C64",
   "status": "partial",
   "theorems": [
    "C64_compile_partial",
    "C64_match_partial",
    "C64_priority_blank_refuted",
    "C64_priority_predicate_refuted",
    "C64_node_blank_refuted",
    "C64_rejected_refuted"
   ],
   "note": "Texts of patterns (inductive grammar of XSLT 5.2, no bound on length) compile to the matchers of C61 and, under priority_right, to the default priorities of XSLT 5.5; chained with C61 to the nodes matched. id() and key() patterns are in C80. Missing: non-ASCII names; refuted: priorities with blanks before the bar, predicates after prefixed names, node( ), some legal patterns rejected."
  },
  {
   "property": "C65",
   "status": "partial",
   "theorems": [
    "C65_compiles_partial",
    "C65_sound",
    "C65_foreign_attribute_refuted",
    "C65_choose_attribute_refuted",
    "C65_empty_namespace_refuted",
    "C65_space_refuted",
    "C65_current_refuted",
    "C65_late_alias_refuted",
    "C65_default_alias_refuted",
    "C65_lenient_refuted",
    "C65_refuses_partial",
    "C65_nested_alias_refuted"
   ],
   "note": "Completeness for all documents that are stylesheets by the specification and meet the listed conditions (agreed); compiling never breaks; whatever compiles fits the grammar of stylesheets with the stated leniencies (refuses). Not covered: several xsl:output elements (include and import are C70); that every document that compiles is a stylesheet is refuted (lenient, nested_alias)."
  },
  {
   "property": "C66",
   "status": "partial",
   "theorems": [
    "C66_events_partial",
    "C66_but_ends_partial",
    "C66_again",
    "C66_xml_ends_refuted",
    "C66_early_ends_refuted",
    "C66_xmlns_attribute_refuted",
    "C66_xml_declared_refuted",
    "C66_sections_refuted",
    "C66_left_over_refuted",
    "C66_stuck_refuted",
    "C66_feature",
    "C66_both_off_refuted",
    "C66_other_feature_refuted"
   ],
   "note": "Exact for the libxml2 reader and, through expat, for documents in which every element declares a namespace; for all others exact but for the ends of mappings. Refuted: expat's reader ends mappings of other elements and of xml; attributes whose names begin with xmlns; declaring xml; adjoining CDATA sections through libxml2; prefixes left over after a broken document; features locked after an exception; both features off. Missing: namespaces feature off."
  },
  {
   "property": "C67",
   "status": "partial",
   "theorems": [
    "C67_expat_partial",
    "C67_distinct_partial",
    "C67_libxml2_partial",
    "C67_mixed_refuted",
    "C67_empty_refuted",
    "C67_libxml2_mixed_refuted",
    "C67_nested_refuted",
    "C67_mode_partial",
    "C67_default_refuted",
    "C67_libxml2_mode_refuted",
    "C67_tokens_refuted"
   ],
   "note": "Through expat all models but mixed content with names (refuted), through libxml2 flat groups of two or more names; nested groups, mixed content and EMPTY are refuted, as are the modes of defaults and, through libxml2, of #IMPLIED."
  },
  {
   "property": "C68",
   "status": "partial",
   "theorems": [
    "C68_reads_partial",
    "C68_ends",
    "C68_short",
    "C68_comment_refuted",
    "C68_signed_refuted",
    "C68_attribute_reference_refuted",
    "C68_character_reference_refuted",
    "C68_mismatch_refuted",
    "C68_silent_refuted",
    "C68_no_content_refuted",
    "C68_twice_refuted",
    "C68_subset_refuted"
   ],
   "note": "Documents without character references and without references in attribute values (both refuted); where char is signed, without visible characters in comments, sections, instructions and document types (refuted). Texts that are not documents: not reported, and read beyond their end (refuted)."
  },
  {
   "property": "C69",
   "status": "partial",
   "theorems": [
    "C69_import_partial",
    "C69_clone_partial",
    "C69_same",
    "C69_document_partial",
    "C69_attribute_specified_refuted",
    "C69_defaults_refuted",
    "C69_empty_local_refuted",
    "C69_document_order_refuted",
    "C69_document_references_refuted"
   ],
   "note": "Proved for nodes with names that createElementNS and the like take (local name not empty), documents without default attributes, and entities without notations: import_partial, clone_partial, same, document_partial. Refuted: a cloned unspecified attribute stays unspecified; two default attributes give only the last; importNode drops the namespace of p:; the clone of a document has its type first and its references have lost their content. The table of IDs, notations and entities as copied nodes are not in the theorems."
  },
  {
   "property": "C70",
   "status": "partial",
   "theorems": [
    "C70_combines_partial",
    "C70_stylesheets_partial",
    "C70_ends",
    "C70_white_refuted",
    "C70_dangling_refuted",
    "C70_malformed_refuted",
    "C70_output_refuted",
    "C70_late_import_refuted",
    "C70_inside_refuted",
    "C70_names_refuted"
   ],
   "note": "Proved: whatever the handlers are, the declarations of all documents reach them in the order and with the precedences of the import tree (C70_combines_partial); stylesheets in several documents compile to the stylesheets of the import tree, each alike to its declarations with those it includes (C70_stylesheets_partial, with the compiler of C65; modules have unique template names, at most one xsl:output and no aliases; includes in the main document are empty elements); compiling comes to an end whatever brings in what (C70_ends). Refuted: white space in an include of the main document makes it be ignored and the next one fail; a dangling reference when a document that itself brings in others has an error; errors in the main document are not found out; an imported xsl:output wins over the importing one; xsl:import need not come first and in included documents may be inside templates; two imported templates of one name pass if a higher one has it. Not modelled: xml:base, namespaces leaking between documents, I/O errors."
  },
  {
   "property": "C71",
   "status": "partial",
   "theorems": [
    "C71_rot13_follows",
    "C71_utf8_follows",
    "C71_utf16_follows",
    "C71_reads_partial",
    "C71_one_block_partial",
    "C71_rot13_partial",
    "C71_wide_partial",
    "C71_short_wide_refuted",
    "C71_back_refuted",
    "C71_overlap_refuted",
    "C71_truncated_refuted",
    "C71_latin1_refuted",
    "C71_split_refuted",
    "C71_nothing_refuted",
    "C71_state_refuted"
   ],
   "note": "Proved: for any facet that follows a form (shown of rot13, UTF-8 and UTF-16 to wide characters) every sequence of get, peek, unget and putback answers as a place moving in the converted text, wherever blocks end and however the buffer grows, unless a memcpy goes wrong (C71_reads_partial; characters wider than a byte forward only); none does for one byte characters from one block, for rot13 of any length unless the last block has 1 to 3 bytes, and for 16 or more wide characters from one block. Refuted: short wide texts read before the buffer; stepping back after a block gives other characters; overlapping memcpy; bytes ending within a character lose the whole block; Latin-1 of 1020 bytes or more as UTF-8 reads as nothing; UTF-8 as Latin-1 reads beyond a block; Base64 with a last block of white space gives an extra character; the state is uninitialised. Missing: freedom from UB for multi-byte facets over several blocks."
  },
  {
   "property": "C72",
   "status": "partial",
   "theorems": [
    "C72_rot13_follows",
    "C72_utf8_follows",
    "C72_utf16_follows",
    "C72_writes_partial",
    "C72_unwritten_refuted",
    "C72_flush_refuted",
    "C72_cut_refuted",
    "C72_failure_refuted",
    "C72_strings_in",
    "C72_strings_out",
    "C72_string_roundtrip_partial",
    "C72_string_ends_refuted",
    "C72_string_beyond_refuted"
   ],
   "note": "Proved: writing through a facet that follows a form (shown of rot13, UTF-8, UTF-16) gives the form of everything put, whatever the flushes, provided one character is put first; whole strings of any length convert exactly in both directions and round-trip for characters below 65536. Refuted: flushing an unwritten stream is UB; Base64 is padded at each flush; UTF-8 to Latin-1 flushed within a character reads beyond the buffer; after a failure each flush repeats what was written; strings ending within a character convert for ever; characters from 65536 on are dropped."
  },
  {
   "property": "C73",
   "status": "partial",
   "theorems": [
    "C73_follows_partial",
    "C73_once",
    "C73_self_refuted",
    "C73_own_refuted"
   ],
   "note": "Proved: with no self-assignment, reading follows the stream last given and streams are destroyed as the owner relation says, never twice, and counters are freed. Refuted: assigning an input source to itself loses and leaks the stream and a copy then dereferences null; lending a source its own stream destroys it first."
  },
  {
   "property": "C74",
   "status": "partial",
   "theorems": [
    "C74_reads_partial",
    "C74_reads_calm_partial",
    "C74_small_pieces_refuted",
    "C74_error_refuted",
    "C74_after_end_refuted",
    "C74_writes_partial",
    "C74_short_send_refuted",
    "C74_close_refuted",
    "C74_unwritten_refuted",
    "C74_http_partial",
    "C74_status_refuted",
    "C74_unending_refuted"
   ],
   "note": "Proved: reads give the whole text for any pieces unless a memcpy overlaps, which it does not for pieces of 4 to 1024 bytes; everything written arrives in order if each send takes all; the document is what is left of a response. Refuted: three one-byte pieces overlap in memcpy (UB); errors look like the end; no step back after the end; short sends lose text; close loses text; unwritten streams are UB when destroyed; the HTTP status is ignored; header skipping never ends without a CRLF blank line or with a line over 1023 characters."
  },
  {
   "property": "C75",
   "status": "partial",
   "theorems": [
    "C75_given",
    "C75_name",
    "C75_registered",
    "C75_in_force",
    "C75_file",
    "C75_drive",
    "C75_turned",
    "C75_remote_refuted",
    "C75_other_file_refuted",
    "C75_url_refuted",
    "C75_beyond_refuted"
   ],
   "note": "Proved: given streams are used and not deleted; plain names and file URLs open the file of that name; the resolver in force after any history gets the whole identifier and its stream is deleted. Refuted: when a resolver fails the path is opened as a local file; names with colons or backslashes open other files or none; fragments and percent escapes are part of the name; file:/// and a bare scheme read beyond the end."
  },
  {
   "property": "C76",
   "status": "partial",
   "theorems": [
    "C76_calls_partial",
    "C76_missing_refuted",
    "C76_missing",
    "C76_extension",
    "C76_function_available_partial",
    "C76_unparsed_refuted",
    "C76_undeclared_refuted",
    "C76_no_current",
    "C76_element_available_partial",
    "C76_unimplemented_refuted",
    "C76_no_namespace_refuted",
    "C76_ids_partial",
    "C76_id_of_set_partial",
    "C76_id_name_refuted",
    "C76_properties_partial",
    "C76_prefix_refuted",
    "C76_documents_partial",
    "C76_document_twice_refuted",
    "C76_document_arguments_refuted"
   ],
   "note": "Calls compile exactly as the tables of XPath 1.0 and XSLT 1.0 say, except the four functions Arabica lacks (refuted: id, lang, format-number, unparsed-entity-uri). function-available and element-available agree with the compiler except for unparsed-entity-uri, fallback and number, undeclared prefixes and names in no namespace (each refuted). generate-id is injective on nodes with addresses of their own but not a name (refuted). system-property needs the prefix xsl (refuted otherwise). document() with one string; the same place twice gives two documents, other arguments are refused (both refuted)."
  },
  {
   "property": "C77",
   "status": "partial",
   "theorems": [
    "C77_exact_partial",
    "C77_found_partial",
    "C77_given_partial",
    "C77_removed_refuted",
    "C77_changed_refuted",
    "C77_passed_on_refuted",
    "C77_thrown_refuted",
    "C77_purged_refuted",
    "C77_other_element_refuted"
   ],
   "note": "Exact while no ID attribute was removed, replaced or renamed, no element is read-only and nothing was purged; an element with an ID is never missed after any calls but renaming and purging; what is found has or had such an attribute. Refuted: removed and changed IDs still find the element (removeElementId is never called), a throwing setAttribute makes an element found, after purgeChild the search reads freed memory, an ID declared for one element counts for all."
  },
  {
   "property": "C78",
   "status": "partial",
   "theorems": [
    "C78_reported_partial",
    "C78_skipped_partial",
    "C78_matched",
    "C78_text",
    "C78_shared_refuted",
    "C78_crossed_refuted",
    "C78_again_refuted",
    "C78_dtd_refuted",
    "C78_parameter_refuted",
    "C78_twice_refuted"
   ],
   "note": "The full property is refuted: names of entities are looked up by system identifier, so entities sharing one (C78_shared_refuted) or a public identifier equal to another's system identifier (C78_crossed_refuted) are told under the wrong name; names survive into the next parse (C78_again_refuted, C78_dtd_refuted); parameter entities are told without a percent sign (C78_parameter_refuted); one unreadable entity is two fatal errors (C78_twice_refuted). Proved: for a new reader and entities with places of their own all events are right to any depth (C78_reported_partial), skipped entities (C78_skipped_partial), matching of starts and ends always (C78_matched), the characters always (C78_text)."
  },
  {
   "property": "C79",
   "status": "partial",
   "theorems": [
    "C79_feature",
    "C79_asked",
    "C79_parsing",
    "C79_delivered_partial",
    "C79_ready_partial",
    "C79_dom_partial",
    "C79_thrown_refuted",
    "C79_orphan_refuted",
    "C79_dom_refuted",
    "C79_circle_refuted",
    "C79_others",
    "C79_refused",
    "C79_parent",
    "C79_both_off_refuted",
    "C79_asked_last_refuted"
   ],
   "note": "Proved: features through any chain of filters (C79_feature, C79_asked, C79_parsing), delivery of every event of a parse through any chain and to the handlers of the top only, including handlers that throw (C79_delivered_partial: handlers of the top that are themselves filters are left out), readiness of readers over all histories without exceptions (C79_ready_partial), the features a DOM parser gives its reader (C79_dom_partial). Also what setting one feature does to the others (C79_others), what is refused (C79_refused), and that a new parent changes no handlers (C79_parent). Refuted: namespaces and prefixes can both be turned off (C79_both_off_refuted), and asking for prefixes last turns namespaces on again (C79_asked_last_refuted); after an exception, e.g. from the default error handler of a filter at a document that is not well formed, the reader refuses features and fails on the next document (C79_thrown_refuted); parse of a filter without parent uses a null pointer (C79_orphan_refuted); two features of a DOM parser share one flag (C79_dom_refuted); a filter among its own parents recurs for ever (C79_circle_refuted)."
  },
  {
   "property": "C80",
   "status": "partial",
   "theorems": [
    "C80_compiles",
    "C80_matches_partial",
    "C80_id_refuted",
    "C80_prefix_refuted",
    "C80_attributes_refuted",
    "C80_string_use_refuted"
   ],
   "note": "Every spelling of key('n','v') compiles with priority 0.5, and in any history of tries a node matches exactly if it has the key. Missing, as refuted: id() patterns never compile; undeclared prefixes are passed over; keys on attributes or with a use that is no node set match nothing. Paths that go on after key(...) do not compile (C64)."
  },
  {
   "property": "C81",
   "status": "partial",
   "theorems": [
    "C81_kept_partial",
    "C81_one",
    "C81_reported",
    "C81_told_apart_partial",
    "C81_joined_refuted",
    "C81_where_refuted",
    "C81_warning_refuted",
    "C81_no_position_refuted",
    "C81_nul_refuted"
   ],
   "note": "Copies and assignments, the round trip of one exception, errorsReported and the telling apart of histories are proved. Left out, as refuted: texts are joined without a separator, so a message with the words 'Parse exception at ' can read as two; the document is not told; warnings count as errors; no position reads as 2^64-1; a message ends at a NUL."
  },
  {
   "property": "C82",
   "status": "partial",
   "theorems": [
    "C82_told_partial",
    "C82_alive",
    "C82_safe_partial",
    "C82_unsafe",
    "C82_self_refuted",
    "C82_kinds_refuted",
    "C82_fresh_refuted"
   ],
   "note": "proved for every history of creations, assignments, drops, initialisations, stops and preventions: what each handle tells, when events are destroyed, and exactly which step is undefined. Refuted: self-assignment of the only handle is use after free (the old one is released first), createEvent of every kind but MutationEvent gives a null handle instead of an exception, and an event not initialised has members without values. Left out: targets, phase and time of an event; the handle DocumentEvent."
  },
  {
   "property": "C83",
   "status": "partial",
   "theorems": [
    "C83_saved_partial",
    "C83_defined",
    "C83_assigned_refuted"
   ],
   "note": "proved for every history without an assignment from a reader's locator. Refuted: that assignment, which the documentation of the class shows, has no return statement and is undefined."
  }
 ]
}