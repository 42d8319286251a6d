{"id": "C01", "title": "Base64 write then read gives back the bytes", "statement": "Writing a byte string through a stream imbued with the base64 codec facet and reading the result back through the same facet yields exactly the original bytes.", "quantifier": "every finite byte string", "why_tests_cant": "There are infinitely many byte strings; the failing ones depend on length modulo 3 together with the value of the last byte.", "anchors": ["src/convert/base64codecvt.cpp: base64codecvt::do_out, do_in, consume, putChar"]}
{"id": "C02", "title": "Base64 encoder emits RFC 4648 base64", "statement": "The characters produced by the base64 facet for a byte string are the RFC 4648 encoding: the standard alphabet, four characters per three bytes, and '=' padding only at the end.", "quantifier": "every finite byte string", "why_tests_cant": "Every length residue and every byte value combination has to be right.", "anchors": ["src/convert/base64codecvt.cpp: base64codecvt::do_out"]}
{"id": "C03", "title": "Base64 result does not depend on how the buffers are cut", "statement": "Encoding into a sequence of small output buffers produces the same characters as encoding into one big buffer, and decoding input delivered in pieces produces the same bytes as decoding it at once.", "quantifier": "every byte string, every sequence of output buffer sizes for the encoder, every way of cutting the input for the decoder", "why_tests_cant": "The number of ways of cutting a stream into buffers is exponential in its length.", "anchors": ["src/convert/base64codecvt.cpp: base64codecvt::do_out, do_in, getState, grabState, setState"]}
{"id": "C04", "title": "ROT13 is its own inverse and touches only letters", "statement": "Applying the rot13 facet twice gives back the input, letters stay letters of the same case, and every other byte is unchanged.", "quantifier": "every finite byte string", "why_tests_cant": "All strings; the facet is a table so a single wrong entry only shows on that byte.", "anchors": ["src/convert/rot13codecvt.cpp: rot13codecvt::do_out, do_in, rot13"]}
{"id": "C05", "title": "Latin-1 to UTF-8 and back is lossless", "statement": "Converting ISO-8859-1 text to UTF-8 with the library's converter gives the standard UTF-8 encoding of each byte, and converting back yields the original text, however the destination buffer is sized.", "quantifier": "every Latin-1 string, every destination capacity", "why_tests_cant": "Buffer boundaries fall at every offset of every multi-byte sequence.", "anchors": ["src/convert/impl/iso88591_utf8.cpp: iso88591_2_utf8, utf8_2_iso88591"]}
{"id": "C06", "title": "UCS-2 to UTF-8 and back is lossless", "statement": "Every code unit handed to the UCS-2 to UTF-8 converter comes back unchanged from the UTF-8 to UCS-2 converter, and the bytes in between are the standard UTF-8 encoding.", "quantifier": "every sequence of wide characters, every destination capacity", "why_tests_cant": "Boundary values of each sequence length in every position, and every buffer split.", "anchors": ["src/convert/impl/ucs2_utf8.cpp: ucs2_2_utf8, utf8_2_ucs2"]}
{"id": "C07", "title": "UTF-16 byte order conversions are inverse", "statement": "Writing UCS-2 text as UTF-16 (big or little endian) and reading it back with the same endianness yields the same code units.", "quantifier": "every sequence of 16-bit units, both byte orders, every destination capacity", "why_tests_cant": "All strings and all splits.", "anchors": ["src/convert/impl/ucs2_utf16.cpp: utf16_2_ucs2, ucs2_2_utf16"]}
{"id": "C08", "title": "UTF-8 decoders never read outside the supplied buffer", "statement": "For arbitrary, possibly malformed or truncated, input bytes the UTF-8 converters only read bytes inside the range they were given.", "quantifier": "every byte string, including truncated multi-byte sequences", "why_tests_cant": "An out-of-range read usually goes unnoticed in a test; the property is about all malformed inputs.", "anchors": ["src/convert/impl/iso88591_utf8.cpp: utf8_2_iso88591", "src/convert/impl/ucs2_utf8.cpp: utf8_2_ucs2"]}
{"id": "C09", "title": "codecvt length() always terminates and stays in range", "statement": "The length query of the UTF-8 facets terminates on every input and reports no more than the number of bytes available.", "quantifier": "every byte string and every requested maximum", "why_tests_cant": "Non-termination on some malformed inputs cannot be excluded by finitely many terminating runs.", "anchors": ["src/convert/utf8iso88591codecvt.cpp: do_length", "src/convert/utf8ucs2codecvt.cpp: do_length", "src/convert/rot13codecvt.cpp: do_length"]}
{"id": "C10", "title": "Escaped text and attribute values parse back to the original", "statement": "Replacing entity and character references in escaped text or attribute values gives back the original string, and the escaped form contains no character that could end the text run or attribute value, or begin markup.", "quantifier": "every string", "why_tests_cant": "Any string of special characters, including ones that look like references already.", "anchors": ["include/XML/escaper.hpp: text_escaper, attribute_escaper"]}
{"id": "C11", "title": "Character classes agree with XML 1.0 and with each other", "statement": "The character predicates accept exactly the characters of the corresponding XML 1.0 productions, and every name-start character is a name character.", "quantifier": "every 16-bit character", "why_tests_cant": "65536 characters and dozens of ranges; range end-points are where table errors hide.", "anchors": ["src/XML/XMLCharacterClasses.cpp", "include/XML/XMLCharacterClasses.hpp: is_letter, is_digit, is_ncname_char, ..."]}
{"id": "C12", "title": "QName validation and splitting", "statement": "A string is accepted as a QName exactly when it is an NCName or two NCNames separated by one colon, and the prefix and local part it is split into join back to the string.", "quantifier": "every string", "why_tests_cant": "All positions and numbers of colons.", "anchors": ["include/XML/strings.hpp: is_ncname, is_qname", "include/XML/QName.hpp: QualifiedName::parseQName"]}
{"id": "C13", "title": "Whitespace normalisation is the XPath one", "statement": "normalize_whitespace strips leading and trailing white space and replaces every inner run by one space; it changes nothing else and is idempotent.", "quantifier": "every string", "why_tests_cant": "All arrangements of white-space runs.", "anchors": ["include/text/normalize_whitespace.hpp: normalize_whitespace"]}
{"id": "C14", "title": "URI text survives parsing and printing", "statement": "Constructing a URI from its printed form gives a URI with the same components, and printing that again gives the same text.", "quantifier": "every string accepted as a URI", "why_tests_cant": "All combinations of present and absent components.", "anchors": ["src/io/uri.cpp: URI::parse, URI::as_string, URI::portAsString"]}
{"id": "C15", "title": "Relative URI resolution", "statement": "Resolving a relative reference against a base gives the base directory followed by the reference with . and .. segments applied, never an error; absolute references ignore the base.", "quantifier": "every base URI and every relative reference", "why_tests_cant": "All nestings of dot segments, including more '..' than the base has segments.", "anchors": ["src/io/uri.cpp: URI::URI(base, relative), combinePath, absolutise"]}
{"id": "C16", "title": "Namespace contexts behave as a scoped dictionary", "statement": "After any sequence of pushContext, declarePrefix and popContext, looking up a prefix gives the innermost declaration still in scope, and leaving a context restores every answer to what it was before the context was entered.", "quantifier": "every sequence of operations and every prefix", "why_tests_cant": "Unbounded histories of nested contexts.", "anchors": ["include/SAX/helpers/NamespaceSupport.hpp: pushContext, popContext, declarePrefix, getURI, getPrefix, processName"]}
{"id": "C17", "title": "Reverse namespace lookups are usable", "statement": "A prefix returned for a URI, looked up again, gives that URI.", "quantifier": "every history of declarations and every URI", "why_tests_cant": "Shadowing makes this depend on the whole history.", "anchors": ["include/SAX/helpers/NamespaceSupport.hpp: getPrefix, getPrefixes"]}
{"id": "C18", "title": "xml:base tracking", "statement": "At every point of a document the current base URI is the xml:base of the nearest enclosing element that has one, resolved against the enclosing base, and otherwise the document location; leaving an element restores the enclosing base.", "quantifier": "every well-nested sequence of element events", "why_tests_cant": "Unbounded nesting depth and arbitrary placement of xml:base.", "anchors": ["include/SAX/helpers/XMLBaseSupport.hpp: startElement, endElement, currentBase", "include/SAX/filter/XMLBaseTracker.hpp"]}
{"id": "C19", "title": "Attribute lists behave as ordered lists keyed by name", "statement": "For any sequence of additions, removals and modifications, index, qualified-name and (URI, local name) look-ups return the first matching attribute, positions are stable under modification, and invalid positions are rejected without changing anything.", "quantifier": "every sequence of attribute list operations", "why_tests_cant": "Unbounded histories with duplicate names.", "anchors": ["include/SAX/helpers/AttributesImpl.hpp"]}
{"id": "C20", "title": "Text coalescing loses and reorders nothing", "statement": "The coalescing filter delivers the same events as it receives except that adjacent character events are merged: no two adjacent character events are delivered, no text is lost, and text keeps its place relative to every other event.", "quantifier": "every sequence of SAX events", "why_tests_cant": "Every interleaving of text with every other event kind.", "anchors": ["include/SAX/filter/TextCoalescer.hpp"]}
{"id": "C21", "title": "Whitespace stripping removes exactly ignorable white space", "statement": "The stripping filter forwards all events, normalising character data as documented, and never alters non-white-space characters.", "quantifier": "every sequence of SAX events", "why_tests_cant": "All texts and event orders.", "anchors": ["include/SAX/filter/WhitespaceStripperFilter.hpp"]}
{"id": "C22", "title": "The SAX writer produces matching, well-formed markup", "statement": "For every well-nested event sequence the writer's output, read back, contains the same elements, attributes, text, comments and processing instructions in the same order.", "quantifier": "every well-nested event sequence", "why_tests_cant": "Unbounded nesting, all strings in text and attribute positions.", "anchors": ["include/SAX/filter/Writer.hpp"]}
{"id": "C23", "title": "PYX output can be read back", "statement": "Distinct event sequences give distinct PYX output.", "quantifier": "every sequence of SAX events", "why_tests_cant": "Injectivity is a statement about all pairs of inputs.", "anchors": ["include/SAX/filter/PYXWriter.hpp: PYXWriter::escape, startElement, characters"]}
{"id": "C24", "title": "DOM tree links stay consistent", "statement": "After any sequence of DOM mutations, including ones that throw, each node is in at most one child list, its parent is the owner of that list, and its previous and next sibling are its neighbours there; no node is its own ancestor.", "quantifier": "every sequence of insertBefore, replaceChild, removeChild and appendChild calls on any nodes", "why_tests_cant": "Unbounded mutation histories; a broken link shows only on a later navigation.", "anchors": ["include/DOM/Simple/NodeImpl.hpp: NodeImplWithChildren::insertBefore, replaceChild, removeChild, appendChild, checkCanAdd", "include/DOM/Simple/DocumentImpl.hpp"]}
{"id": "C25", "title": "A rejected DOM mutation changes nothing", "statement": "If insertBefore, replaceChild, appendChild or removeChild throws a DOMException, the tree is exactly as before the call.", "quantifier": "every reachable document and every rejected call", "why_tests_cant": "Needs every error path from every state.", "anchors": ["include/DOM/Simple/NodeImpl.hpp: do_insertBefore, do_replaceChild, removeIfRequired, findChild"]}
{"id": "C26", "title": "getDocumentElement is right", "statement": "At any time a document has at most one element child and at most one doctype child, and getDocumentElement and getDoctype return precisely these.", "quantifier": "every sequence of mutations of the document", "why_tests_cant": "Histories; caching of the two children can become stale.", "anchors": ["include/DOM/Simple/DocumentImpl.hpp: insertBefore, replaceChild, removeChild, getDocumentElement, getDoctype"]}
{"id": "C27", "title": "Attribute maps hold one attribute per name", "statement": "After any sequence of attribute operations an element has at most one attribute with a given name, getAttribute returns the value last set, and an attribute belongs to at most one element.", "quantifier": "every sequence of attribute map operations", "why_tests_cant": "Unbounded histories mixing plain and namespace aware calls.", "anchors": ["include/DOM/Simple/AttrMap.hpp", "include/DOM/Simple/NamedNodeMapImpl.hpp"]}
{"id": "C28", "title": "CharacterData operations are string operations", "statement": "substringData, appendData, insertData, deleteData and replaceData do what the DOM says to the data string, raise INDEX_SIZE_ERR exactly for offsets outside it or negative counts, and leave the data unchanged when they raise.", "quantifier": "every data string, offset, count and argument", "why_tests_cant": "All offsets and counts, including ones past the end.", "anchors": ["include/DOM/Simple/CharacterDataImpl.hpp"]}
{"id": "C29", "title": "splitText and normalize preserve the text", "statement": "Splitting and normalising never change the text content of any element; afterwards normalize leaves no empty and no adjacent text nodes and a second normalize does nothing.", "quantifier": "every tree and every sequence of splits", "why_tests_cant": "All trees.", "anchors": ["include/DOM/Simple/TextImpl.hpp: splitText", "include/DOM/Simple/NodeImpl.hpp: normalize"]}
{"id": "C30", "title": "Tag name lists are live", "statement": "The list returned by getElementsByTagName always reflects the current document: after any change, its length and items are the matching elements in document order.", "quantifier": "every interleaving of mutations and list accesses", "why_tests_cant": "Cache invalidation depends on the history of calls.", "anchors": ["include/DOM/Simple/ElementByTagImpl.hpp: item, getLength, populate"]}
{"id": "C31", "title": "TreeWalker visits the accepted nodes in document order", "statement": "Repeated nextNode visits exactly the nodes that the filter accepts and that are not below a rejected node, in document order; the other navigation calls move as the DOM traversal specification says.", "quantifier": "every tree, every filter and every position", "why_tests_cant": "All trees and all accept/skip/reject patterns.", "anchors": ["include/DOM/Traversal/TreeWalkerImpl.hpp"]}
{"id": "C32", "title": "Event dispatch order", "statement": "Dispatching an event runs capturing listeners from the root down to the target's parent, then the target's listeners, then bubbling listeners from the parent up to the root, stopping as soon as a node at which propagation was stopped has finished; a removed listener is not called.", "quantifier": "every tree path, every set of listeners and every behaviour of listeners", "why_tests_cant": "All listener registrations and stop positions.", "anchors": ["include/DOM/Simple/EventTargetImpl.hpp (DOM/Events)"]}
{"id": "C33", "title": "Proxy reference counting keeps documents alive", "statement": "A DOM object is deleted exactly when no handle refers to it any more, whatever sequence of copies, assignments and destructions is performed; no handle is ever left dangling.", "quantifier": "every sequence of handle operations", "why_tests_cant": "Histories of aliasing handles, including self assignment.", "anchors": ["include/DOM/Proxy.hpp: Proxy::setImpl, operator=, ~Proxy", "include/DOM/Simple/DocumentImpl.hpp: addRef, releaseRef"]}
{"id": "C34", "title": "DOM serialisation is faithful", "statement": "Streaming a DOM tree out writes properly nested tags with equal start and end names, escaped text and attribute values, and namespace declarations under which every element and attribute name resolves to its namespace.", "quantifier": "every DOM tree", "why_tests_cant": "All trees, prefixes and namespace bindings.", "anchors": ["include/DOM/io/Stream.hpp"]}
{"id": "C35", "title": "SAX to DOM building mirrors the events", "statement": "Feeding the builder the SAX events of a document creates exactly that tree: walking the tree gives the events back.", "quantifier": "every tree", "why_tests_cant": "All trees.", "anchors": ["include/DOM/SAX2DOM/SAX2DOM.hpp: startElement, endElement, characters, comment, processingInstruction"]}
{"id": "C36", "title": "XPath document order is a total order", "statement": "The comparison used to sort node sets is a strict total order on the nodes of a document and agrees with document order: an element precedes its attributes, these precede its children, and subtrees are visited in pre-order.", "quantifier": "every document and every pair or triple of its nodes", "why_tests_cant": "Transitivity and totality quantify over all triples of nodes of all documents.", "anchors": ["include/XPath/impl/xpath_object.hpp: compareNodes, node_child_position, node_attribute_index, resolve_different_subtrees"]}
{"id": "C37", "title": "XPath axes return the nodes the specification names", "statement": "Each axis enumerates exactly the nodes XPath defines for it, once each, in document order for forward axes and reverse document order for reverse axes; ancestor, descendant, following, preceding and self partition the document.", "quantifier": "every document, every context node", "why_tests_cant": "All trees and all context nodes.", "anchors": ["include/XPath/impl/xpath_axis_enumerator.hpp"]}
{"id": "C38", "title": "Node sets have no duplicates and are in document order", "statement": "After sorting, a node set has each node once, in document order (reverse for reverse sets); union gives the set union in document order; the first node in document order is the one used for string conversion.", "quantifier": "every node set and every sequence of additions", "why_tests_cant": "All multisets in all orders.", "anchors": ["include/XPath/impl/xpath_object.hpp: NodeSet::sort, to_document_order, top", "include/XPath/impl/xpath_union.hpp"]}
{"id": "C39", "title": "XPath comparisons have the existential semantics", "statement": "Comparing with a node set is true exactly when some node (or pair of nodes) makes the comparison true, for =, !=, <, <=, > and >=, including NaN values and empty sets.", "quantifier": "every pair of values and every node set", "why_tests_cant": "All sets of node values including NaN.", "anchors": ["include/XPath/impl/xpath_object.hpp: areEqual, isLessThan, nodeSetsEqual, nodeSetAndValueEqual, compareNodeSets, minValue, maxValue"]}
{"id": "C40", "title": "XPath predicates number nodes in axis order", "statement": "A step's predicate sees each node with its position in axis order among the nodes kept by the previous predicates and the right context size; a numeric predicate keeps exactly the node at that position.", "quantifier": "every node list and every list of predicates", "why_tests_cant": "All combinations of predicates.", "anchors": ["include/XPath/impl/xpath_step.hpp: applyPredicates, applyPredicate, enumerateOver"]}
{"id": "C41", "title": "XPath string functions follow the specification", "statement": "starts-with, contains, substring-before, substring-after, substring and translate return what XPath 1.0 defines for all arguments and never throw.", "quantifier": "every string and number argument", "why_tests_cant": "Boundary positions, empty strings, characters deleted in the middle.", "anchors": ["include/XPath/impl/xpath_function.hpp: StartsWithFn, ContainsFn, SubstringBeforeFn, SubstringAfterFn, SubstringFn, TranslateFn"]}
{"id": "C42", "title": "XPath mod and round follow the specification", "statement": "mod returns the remainder of truncating division for all numbers, NaN for a zero divisor, and round returns the closest integer with ties towards positive infinity.", "quantifier": "every pair of numbers", "why_tests_cant": "Fractional, zero, infinite and NaN operands.", "anchors": ["include/XPath/impl/xpath_arithmetic.hpp: NaN_aware_modulus", "include/XPath/impl/xpath_object.hpp: roundNumber"]}
{"id": "C43", "title": "XSLT variables are lexically scoped", "statement": "A variable reference resolves to the binding in the current scope or else to the global one; leaving a scope restores all bindings; a template sees exactly the parameters passed to it.", "quantifier": "every sequence of scope and declaration operations", "why_tests_cant": "Unbounded histories of nested scopes.", "anchors": ["include/XSLT/impl/xslt_variable_stack.hpp"]}
{"id": "C44", "title": "XSLT import precedence is a total order", "statement": "Import precedence totally orders stylesheets, an importing stylesheet beats everything it imports, and a later import beats an earlier one and everything below it.", "quantifier": "every import tree", "why_tests_cant": "All pairs and triples of positions in all import trees.", "anchors": ["include/XSLT/impl/xslt_precedence.hpp"]}
{"id": "C45", "title": "XSLT picks the right template", "statement": "The template applied to a node is one that matches it with the highest import precedence, among these the highest priority, among these the last declared; if there is none the built-in rule applies.", "quantifier": "every stylesheet and node", "why_tests_cant": "All sets of templates with all precedences, priorities and match results.", "anchors": ["include/XSLT/impl/xslt_compiled_stylesheet.hpp: add_template, prepare, doApplyTemplates"]}
{"id": "C46", "title": "xsl:sort sorts", "statement": "Sorting a node list with xsl:sort keys gives a permutation of the nodes ordered by the keys, later keys deciding ties of earlier ones and document order deciding the rest; the comparison is a strict weak order even with NaN keys.", "quantifier": "every node list and every list of sort keys", "why_tests_cant": "Comparator axioms quantify over all triples; NaN breaks naive comparators.", "anchors": ["include/XSLT/impl/xslt_sort.hpp"]}
{"id": "C47", "title": "XSLT output never produces malformed comments or processing instructions", "statement": "Whatever text a stylesheet puts into a comment or processing instruction, the emitted comment contains no '--' and does not end with '-', the processing instruction contains no '?>', and only spaces are added.", "quantifier": "every string", "why_tests_cant": "All runs of hyphens.", "anchors": ["include/XSLT/impl/xslt_output.hpp: escape, end_comment, end_processing_instruction"]}
{"id": "C48", "title": "XSLT output events are balanced and namespaced correctly", "statement": "The element events XSLT output emits are well nested, start and end names agree, and each name's prefix is bound to its namespace by the declarations emitted so far in scope, with no attribute emitted twice.", "quantifier": "every sequence of output calls", "why_tests_cant": "All call sequences and prefix/namespace combinations.", "anchors": ["include/XSLT/impl/xslt_output.hpp", "include/XSLT/impl/xslt_namespace_stack.hpp"]}
{"id": "C49", "title": "XSLT keys find exactly the matching nodes", "statement": "key() returns exactly the nodes that match the key's pattern and have the given value among their use values, in document order.", "quantifier": "every document, key declaration set and value", "why_tests_cant": "All documents.", "anchors": ["include/XSLT/impl/xslt_key.hpp: populate, lookup"]}
{"id": "C50", "title": "The HTML parser emits balanced events for any input", "statement": "Whatever the input, the start and end element events delivered by the Taggle HTML parser are properly nested and everything opened is closed before the end of the document.", "quantifier": "every input", "why_tests_cant": "Tag soup: all inputs.", "anchors": ["include/Taggle/impl/Parser.hpp: push, pop, restart, rectify, eof"]}
{"id": "C51", "title": "DOM child kinds", "statement": "No sequence of calls ever gives a node a child of a kind that DOM Core forbids for it (for example text directly in a document, or a doctype in an element).", "quantifier": "every sequence of insertBefore, replaceChild, removeChild and appendChild calls on nodes of all kinds", "why_tests_cant": "The rule must hold for all pairs of kinds and after every history, also through fragments and failed calls.", "anchors": ["include/DOM/Simple/NodeImpl.hpp: checkCanAdd", "include/DOM/Simple/*Impl.hpp: checkChildType"]}
{"id": "C52", "title": "Every DOM node is freed by exactly one owner", "statement": "At any time each node that a document created is either in exactly one child list or in the document's list of parentless nodes, and never in both, so destroying the document deletes it exactly once.", "quantifier": "every sequence of DOM mutations", "why_tests_cant": "Leaks and double deletes depend on the whole history of a node, including calls that throw half way.", "anchors": ["include/DOM/Simple/NodeImpl.hpp: setParentNode", "include/DOM/Simple/DocumentImpl.hpp: orphaned, adopted, ~DocumentImpl"]}
{"id": "C53", "title": "XPath expressions evaluate to what they mean", "statement": "For any compiled XPath expression, however deep, evaluating it at a node gives the value that XPath 1.0 assigns to it: logical, relational, arithmetic and union operators, the core functions, variables, location paths and predicates combine as specified, and a node-set result holds each selected node once.", "quantifier": "every expression tree, every document, every context node, position and size", "why_tests_cant": "Expressions nest without bound and predicates evaluate sub-expressions at other nodes; only induction over the expression covers every combination.", "anchors": ["include/XPath/impl/xpath_expression.hpp: XPathExpression::evaluate", "include/XPath/impl/xpath_function.hpp", "include/XPath/impl/xpath_logical.hpp", "include/XPath/impl/xpath_arithmetic.hpp", "include/XPath/impl/xpath_union.hpp", "include/XPath/impl/xpath_function_holder.hpp"]}
{"id": "C54", "title": "XSLT top level variables get the right values, whatever order they are declared in", "statement": "Of several declarations of a top level variable the one with the highest import precedence counts; its value is what its expression gives for the values of the variables it refers to, which may be declared later; a variable that refers to itself, directly or not, or to one that is not declared, is reported as an error; set_parameter sets the value of a parameter.", "quantifier": "every set of top level declarations and every set of parameters", "why_tests_cant": "Dependency graphs of any size and shape, with any cycles.", "anchors": ["include/XSLT/impl/xslt_variable_stack.hpp: declareVariable, freezeTopLevel, resolveVariable", "include/XSLT/impl/xslt_compiled_stylesheet.hpp: execute, set_parameter"]}
{"id": "C55", "title": "The HTML parser reports only names that XML allows", "statement": "Whatever the input, each element and attribute that the Taggle HTML parser reports has a qualified name that XML allows, its local name and namespace agree with that name, the attributes of an element are distinct and none is a namespace declaration, and the prefixes and the default namespace in use are declared by prefix mapping events.", "quantifier": "every input and every setting of the features", "why_tests_cant": "Tag soup: tag and attribute names are any characters, repeated and nested in any way.", "anchors": ["include/Taggle/impl/Parser.hpp: makeName, push, pop, aname", "include/Taggle/impl/Element.hpp", "include/Taggle/impl/ElementType.hpp: setAttribute, namespace, localName"]}
{"id": "C56", "title": "Text and character references come through the HTML parser", "statement": "Parsing HTML that consists of text and character references reports, in order and through any division into events, exactly the characters of the text and the characters the references name.", "quantifier": "all texts built of characters and references, all feature settings, all points at which the scanner's buffer fills", "why_tests_cant": "The text can be cut at any point by the scanner's buffer, and references can occur in any number and position; tests see a few documents.", "anchors": ["include/Taggle/impl/html/HTMLScanner.hpp", "include/Taggle/Taggle.hpp", "HTMLScanner::scan", "Taggle::entity", "Taggle::pcdata"]}
{"id": "C57", "title": "The HTML parser reports the document type", "statement": "A DOCTYPE declaration at the beginning of a document is reported, before any element, with its name and its public and system identifiers; at most one is reported in a parse, and parsers can be used again.", "quantifier": "all names, white space and inputs that follow; all inputs at all for the uniqueness", "why_tests_cant": "What follows the declaration must not change what is reported for it, and no input may cause two reports.", "anchors": ["include/Taggle/impl/html/HTMLScanner.hpp", "include/Taggle/Taggle.hpp", "Taggle::decl"]}
{"id": "C58", "title": "Comments and instructions from the HTML parser are legal XML", "statement": "For any input bytes, every comment the HTML parser reports contains no double hyphen and does not end in a hyphen, and every processing instruction has a legal target other than xml and data without its terminator, so that they can be written as XML.", "quantifier": "all byte sequences, all feature settings, all points at which the scanner's buffer fills", "why_tests_cant": "The input is arbitrary; any byte sequence whatever has to lead to legal comments and instructions.", "anchors": ["include/Taggle/impl/html/HTMLScanner.hpp", "include/Taggle/Taggle.hpp", "Taggle::cmnt", "Taggle::pi", "Taggle::pitarget"]}
{"id": "C59", "title": "The text of a transformation's result reads back as the result", "statement": "The text that a transformation writes to a stream is an XML document (with the method xml), and a reader finds in it exactly the elements, attributes, namespaces, texts, comments and processing instructions the instructions made, with the declaration and document type asked for by xsl:output; with the method text it is the text of the result and nothing else; indentation adds nothing but white space.", "quantifier": "all sequences of result instructions, all xsl:output settings, all texts and names", "why_tests_cant": "the text depends on pending start tags, on indentation and on divided CDATA sections in every combination; tests look at a few stylesheets", "anchors": ["include/XSLT/impl/xslt_sink.hpp: StreamSink", "include/XSLT/impl/xslt_output.hpp: Output"]}
{"id": "C60", "title": "A transformation gives the result that XSLT defines", "statement": "Running a compiled stylesheet on a document instantiates templates as XSLT 1.0 says: each instruction sees the current node, its position and the size of the current node list; xsl:for-each, xsl:apply-templates, xsl:apply-imports and xsl:call-template process the right nodes with the right rule and the right context; built-in rules fill in; content that is not allowed is ignored; and a transformation that only goes down the tree ends.", "quantifier": "All stylesheets with any import tree, all documents, all nestings of instructions and any depth of recursion.", "why_tests_cant": "The context is shared mutable state that each instruction changes and that later instructions, in any nesting and after any recursion, rely on; a test runs one stylesheet.", "anchors": ["include/XSLT/impl/xslt_compiled_stylesheet.hpp: applyTemplates, applyImports, callTemplate, doApplyTemplates, defaultAction", "include/XSLT/impl/xslt_for_each.hpp: ForEach::execute", "include/XSLT/impl/xslt_apply_templates.hpp: ApplyTemplates::execute", "include/XSLT/impl/xslt_copy.hpp: Copy, CopyOf", "include/XSLT/impl/xslt_choose.hpp: Choose::execute", "include/XSLT/impl/xslt_execution_context.hpp: setPosition, LastFrame"]}
{"id": "C61", "title": "A match pattern matches the nodes XSLT says it matches", "statement": "Trying a compiled match pattern on a node ends with an answer, and the answer is yes exactly if the node is among the nodes the pattern gives, read as an XPath expression, from the node itself or one of its ancestors (from the root for a pattern that starts with a slash). Predicates that pick by position count the right siblings.", "quantifier": "All documents, all nodes, all patterns with any number of alternatives, steps, links and predicates.", "why_tests_cant": "A pattern is compiled into steps that go up the tree, and predicates with positions are rewritten; the two readings must agree for every document and every nesting of predicates, while a test tries one pattern on one document.", "anchors": ["include/XPath/impl/xpath_parser.hpp: createPatternList, createStepsFromPattern, getPatternAxis, createSingleMatchStep, createDocMatch", "include/XPath/impl/xpath_match.hpp: MatchExpr", "include/XPath/impl/xpath_match_rewrite.hpp: ReplacementExpression, should_rewrite, PositionFnScanner"]}
{"id": "C62", "title": "The text of an XPath expression is read as XPath says", "statement": "Compiling a text that XPath's grammar derives for an expression succeeds and gives that expression: operators by precedence and from the left, unary minus, unions, absolute and relative paths, abbreviated steps, axes, node tests, nested predicates, variables, numbers, literals, parentheses, function calls, with white space between the tokens. In particular no text has two readings.", "quantifier": "All texts that the grammar derives, of any length and nesting, all bindings of prefixes.", "why_tests_cant": "The grammar is a recursive ordered-choice grammar over about eighty rules whose alternatives shadow each other, and the trees it yields change shape with the white space; that every derivation comes out as the right expression is a statement about infinitely many texts.", "anchors": ["include/XPath/impl/xpath_grammar.hpp: xpath_grammar_definition", "include/XPath/impl/xpath_parser.hpp: XPath::compile_expr, do_compile, createStepList, createFunction, createBinaryExpression", "include/XPath/impl/xpath_step.hpp: StepFactory", "include/XPath/impl/xpath_node_test.hpp"]}
{"id": "C63", "title": "Attribute value templates", "statement": "Compiling an attribute value template and evaluating it at a node gives the template's text with every {expression} replaced by the string of the expression's value there and every doubled brace by a single one; a right brace standing alone is rejected.", "quantifier": "All templates, of any number of parts, with any XPath expressions in them, at all nodes of all documents.", "why_tests_cant": "Templates mix free text, escaped braces and nested XPath expressions (which may themselves hold braces in literals) in unboundedly many ways; tests try a few combinations.", "anchors": ["include/XPath/impl/xpath_grammar.hpp: xpath_grammar_attribute_value", "include/XPath/impl/xpath_parser.hpp: XPath::compile_attribute_value_template, createAttributeValue, createEmbeddedExpr", "include/XSLT/impl/handler/xslt_inline_element_handler.hpp: InlineElementHandler::createContainer"]}
{"id": "C64", "title": "Texts of match patterns and their default priorities", "statement": "Compiling the text of a match pattern gives one matcher for each alternative, in order; each matches exactly the nodes that the alternative matches by XSLT 1.0 section 5.2, and has the default priority of section 5.5.", "quantifier": "All texts derivable from the grammar of patterns with any number of alternatives, steps and predicates (names in ASCII; without id() and key()), all documents and nodes.", "why_tests_cant": "The priority is computed from the shape of the parse tree and the tokens that follow it, so blanks, predicates and further alternatives change it; the combinations are unbounded and tests only try tidy patterns.", "anchors": ["include/XPath/impl/xpath_grammar.hpp: xpath_grammar_match", "include/XPath/impl/xpath_parser.hpp: XPath::compile_match, createAlternatePattern, createPatternList, createStepsFromPattern, getPatternAxis, defaultPriority", "include/XPath/impl/xpath_match_rewrite.hpp: MatchExpr"]}
{"id": "C65", "title": "Compiling a stylesheet gives what the stylesheet says", "statement": "A document that XSLT 1.0 takes for a stylesheet compiles to the templates, variables, parameters, keys, output settings and instructions that it describes: every XSLT element with the attributes, defaults and content that XSLT gives it, white space dropped, literal result elements renamed by the aliases, foreign top-level elements ignored, and a literal result element as document element taken as a stylesheet with one template. Compiling any sequence of events ends with a stylesheet or an exception.", "quantifier": "all stylesheet documents of any size and depth, for all functions that compile expressions, patterns, attribute value templates and names", "why_tests_cant": "There are about thirty handlers that push each other on a stack; documents nest them in unboundedly many ways, and tests only compile particular stylesheets.", "anchors": ["include/XSLT/impl/xslt_stylesheet_compiler.hpp: StylesheetHandler", "include/XSLT/impl/xslt_compilation_context.hpp: CompilationContext", "include/XSLT/impl/handler/*.hpp", "include/XSLT/impl/handler/xslt_value_validation.hpp: gather"]}
{"id": "C66", "title": "Readers report the events of a document with its namespaces", "statement": "Reading a document that meets the namespace constraints through the expat or libxml2 reader with namespaces on calls the handlers with exactly the events of the document: the start and end of the document, the prefix mappings of each element around it, each element with the namespace, local name and written name its prefix stands for, its attributes likewise (with the declarations among them as the namespace-prefixes feature says), text, CDATA sections, processing instructions and comments in order; no error is reported. Afterwards the reader reads the next document as a new one would. A feature that was set is the feature got.", "quantifier": "all documents of any depth and width, both readers, all settings of handlers and features, all sequences of documents and of feature settings", "why_tests_cant": "Scoping goes wrong in nested or repeated declarations, and left-over state only shows in particular sequences of documents; tests try a few.", "anchors": ["include/SAX/wrappers/saxexpat.hpp: startElement, endElement, parse, setFeature", "include/SAX/wrappers/saxlibxml2.hpp: SAXstartElement, SAXendElement, SAXcdata, parse, setFeature", "src/SAX/wrappers/saxlibxml2.cpp: lwit_cdata"]}
{"id": "C67", "title": "Declared content models and attribute modes reach the declaration handler unchanged", "statement": "The text of a content model that a declaration handler gets can be read, by the grammar of XML 1.0, as exactly the content model that was declared, and the mode of an attribute is the one declared.", "quantifier": "all content models of any nesting, both readers, all attribute declarations", "why_tests_cant": "Content models nest without bound; that texts determine models is a statement about all pairs of models.", "anchors": ["include/SAX/wrappers/saxexpat.hpp: convertXML_Content, attListDeclaration", "include/SAX/wrappers/saxlibxml2.hpp: convertXML_Content, SAXattributeDecl, stringAttrEnum"]}
{"id": "C68", "title": "The Garden parser tells the events of a document", "statement": "For every XML document, parsing it with the Garden reader calls the content handler with exactly the SAX events of that document (elements with their attributes, text, predefined entities, CDATA sections, processing instructions, in document order), whatever spaces, quotes, XML declaration, comments and document type it is written with; parsing any text at all comes to an end with a defined outcome, and a text that is not a document is reported to the error handler.", "quantifier": "all documents and all spellings of them; all texts for termination; both kinds of char (signed and unsigned)", "why_tests_cant": "The grammar backtracks and its actions are not undone, so that each spelling takes its own way through the rules; documents are of unbounded size and depth.", "anchors": ["include/SAX/parsers/saxgarden.hpp: Garden::Garden (grammar), parse, openElement, closeElement, closeEmptyElement, endElementName, endElement, attributeName, attributeValue, elementContent, piTarget, piData, piEnd, entityRef, characterRef, reportError"]}
{"id": "C69", "title": "importNode and cloneNode give faithful, separate copies", "statement": "importNode and cloneNode return a new node of the right document, in no parent, with the same names, namespaces, data, specified attributes and, if deep, children (references have the content their entity has in the document the copy is for); they change nothing that was there, the copy shares no node with the original, and cloning a document gives a new document with its type and copies of its children.", "quantifier": "all trees of nodes of any size and depth, all documents, deep and shallow copies", "why_tests_cant": "The copy is made by mutual recursion over children, attributes, entity references and defaults with many kinds of node; a wrong link or a shared node would show in some trees only, and tests compare few nodes.", "anchors": ["include/DOM/Simple/DocumentImpl.hpp: importNode, cloneNode, createEntityReference_nocheck", "include/DOM/Simple/ElementImpl.hpp: cloneNode, cloneAttributes, cloneChildren", "include/DOM/Simple/AttrImpl.hpp: cloneNode, cloneChildren", "include/DOM/Simple/AttrMap.hpp: getDefaults, setNamedItemNS", "include/DOM/Simple/DocumentTypeImpl.hpp: cloneNode"]}
{"id": "C70", "title": "xsl:include and xsl:import combine stylesheets", "statement": "Compiling a stylesheet that includes and imports other documents gives the declarations of all of them: an include counts as the declarations of the document it refers to, in its place; an import as a stylesheet of lower precedence, by its place in the import tree. References are relative to the document they are in. A document that brings itself in, directly or not, is an error, and compiling always comes to an end. Errors in any of the documents are reported.", "quantifier": "all finite collections of documents, all nestings of includes and imports, all handlers of declarations", "why_tests_cant": "the import tree may have any shape and depth, and the state that is kept between documents (handlers, pending text, stacks of references) only shows in combinations", "anchors": ["include/XSLT/impl/handler/xslt_include_handler.hpp: IncludeHandler, ImportStack", "include/XSLT/impl/xslt_stylesheet_compiler.hpp: StylesheetHandler, StylesheetCompiler::compile", "include/XSLT/impl/xslt_compilation_context.hpp: CompilationContext", "include/SAX/filter/TextCoalescer.hpp"]}
{"id": "C71", "title": "Reading through a converting stream", "statement": "Whatever is read from a stream through a converter, by getting, peeking, stepping back and putting back, is what reading the converted text would give: no character is lost, doubled or changed where the blocks that are read end, where the buffer grows, or at the end of the stream.", "quantifier": "all converters that follow a form, all texts of any length, all sequences of calls", "why_tests_cant": "the blocks, the size of the buffer, the bytes left over from a character that was cut and the characters kept for putback interact; a test sees a few lengths, the failures are at particular ones", "anchors": ["include/io/convert_adaptor.hpp: basic_iconvert_adaptor, basic_convertbuf", "include/io/convertstream.hpp: iconvertstream", "include/convert: the facets"]}
{"id": "C72", "title": "Writing through a converting stream and converting strings", "statement": "What arrives at the destination of a converting stream is the converted form of all characters put into it, wherever it is flushed; and strings of any length convert as a whole: text made from wide characters gives those wide characters back.", "quantifier": "all converters that follow a form, all texts of any length, all placements of flushes", "why_tests_cant": "the loops around the converter must make progress and keep every character for all lengths against their buffers, and for texts that end anywhere", "anchors": ["include/io/convert_adaptor.hpp: flushOut, overflow, sync", "include/Arabica/StringAdaptor.hpp: asStdWString, construct_from_utf16"]}
{"id": "C73", "title": "Byte streams given to input sources are destroyed exactly once", "statement": "However input sources are made, copied, assigned, released and destroyed, reading one reads the byte stream it was last given; a stream that was given away is destroyed exactly when the last source that owns it lets go of it, and a lent stream is never destroyed.", "quantifier": "all sequences of making, copying, assigning, releasing, reading and destroying input sources, over any number of sources and streams", "why_tests_cant": "who must destroy a stream depends on the whole history of copies and assignments", "anchors": ["include/SAX/IStreamHandle.hpp: IStreamHandle", "include/SAX/InputSource.hpp: setByteStream"]}
{"id": "C74", "title": "Reading and writing through sockets, and skipping HTTP headers", "statement": "Whatever pieces a text arrives in, reading a socket stream gives that text, with steps back; whatever is written and wherever it is flushed is sent, in order and once; and of an HTTP response exactly the document is left to the parser.", "quantifier": "all splittings of all texts into received pieces, all sequences of reading and writing calls, all responses", "why_tests_cant": "what the network splits, sends short, or ends early is not under the control of a test", "anchors": ["include/io/socket_stream.hpp: basic_socketbuf", "src/SAX/helpers/InputSourceResolver.cpp: httpResolver"]}
{"id": "C75", "title": "Where the bytes of a document come from", "statement": "A byte stream given with an input source is read and left alone; otherwise the resolver last registered for the scheme of the system identifier provides the stream, a plain name or file URL opens the file it names, and streams opened for the parse are deleted after it.", "quantifier": "all system identifiers, all file systems, all histories of registering and unregistering resolvers", "why_tests_cant": "the outcome depends on every combination of identifiers, files present, hosts reachable and resolvers registered before", "anchors": ["src/SAX/helpers/InputSourceResolver.cpp: InputSourceResolver::open, fileResolver, registerResolver", "include/SAX/helpers/InputSourceResolver.hpp: InputSourceResolver"]}
{"id": "C76", "title": "The functions a stylesheet may call", "statement": "A call compiles if and only if it is of a function of XPath 1.0 or XSLT 1.0 with a number of arguments it takes; function-available and element-available tell beforehand what compiles; generate-id distinguishes nodes and only nodes; system-property gives the properties of the processor; document() gives the root of the document at the place named, relative to the stylesheet.", "quantifier": "all function names and numbers of arguments, all namespace declarations, all nodes, all places and contents of documents, all sequences of calls", "why_tests_cant": "names, arities, declarations and sequences of loaded documents cannot be enumerated, and whether two nodes may get one id depends on every pair of nodes", "anchors": ["include/XSLT/impl/xslt_functions.hpp", "include/XSLT/impl/xslt_compilation_context.hpp: CompilationContext::resolveFunction, validNames", "include/XPath/impl/xpath_function_holder.hpp: FunctionHolder::createFunction"]}
{"id": "C77", "title": "getElementById finds the elements that bear an ID", "statement": "getElementById gives an element that has an attribute declared as an ID with the value asked for, and nothing only if no element of the document has one; it never reads freed memory and changes nothing.", "quantifier": "all histories of setting, replacing, removing and changing attributes, all declarations of IDs, all orders of addresses of attributes", "why_tests_cant": "the answer depends on every attribute the elements of the document ever had, and on where they were allocated", "anchors": ["include/DOM/Simple/DocumentImpl.hpp: getElementById, setElementId, removeElementId, valueIs", "include/DOM/Simple/AttrImpl.hpp: setOwnerElement", "include/DOM/SAX2DOM/SAX2DOM.hpp: attributeDecl"]}
{"id": "C78", "title": "External entities are told where they are referred to", "statement": "With the external entities feature on, a reader over expat tells the declarations of a document, and for each reference to a declared external entity the beginning of that entity, its contents with the entities in it, and its end, wherever the entity resolver places it; with the feature off it tells that the entity is skipped. What is told does not depend on what was parsed before, and an entity that cannot be read is a fatal error.", "quantifier": "all documents and entities, all nestings of entities, all resolvers, all histories of parses with one reader", "why_tests_cant": "entities refer to entities to any depth, names are found by identifiers that may coincide, and the reader remembers names from earlier documents", "anchors": ["include/SAX/wrappers/saxexpat.hpp: externalEntityRefHandler, entityDeclaration, notationDeclaration, startDoctypeDecl, skippedEntity, do_parse"]}
{"id": "C79", "title": "A chain of filters acts as one reader", "statement": "Any number of filters above a reader act as one: features set on or asked of the top are those of the reader, and a parse started at the top delivers each event, through each filter once, to the handler set on the top, whatever was set and parsed before. An exception from a handler ends the parse and leaves the reader usable. A DOM parser gives its reader the features it was last asked for.", "quantifier": "all chains of filters, all histories of making, connecting, configuring and parsing, all documents, all handlers that throw, all features asked of a DOM parser", "why_tests_cant": "chains have any length and are rearranged between parses; what is delivered depends on all pointers set before", "anchors": ["include/SAX/helpers/XMLFilterImpl.hpp: setParent, setFeature, getFeature, setupParse, setDefaults, parse", "include/SAX/wrappers/saxexpat.hpp: parse, setFeature, getFeature", "include/DOM/SAX2DOM/SAX2DOM.hpp: setFeature, setParserFeatures"]}
{"id": "C80", "title": "A template with match=\"key('n','v')\" is for exactly the nodes that have that key", "statement": "A match pattern key('n', 'v'), with whatever white space and quotes, compiles and has the default priority 0.5; whatever was tried before, a node then matches it exactly if it has, in its own document, a key of that name with that value, and a name that no xsl:key declares is an error. id('v') is a pattern in the same way.", "quantifier": "all literals, white space, declared keys, forests of documents and sequences of tries", "why_tests_cant": "the result depends on the map that is filled at the first try in a document and kept for all later ones; the text has unboundedly many spellings", "anchors": ["include/XPath/impl/xpath_parser.hpp: createIdKeyPattern, defaultPriority", "include/XPath/impl/xpath_step.hpp: IdKeyStepExpression", "include/XSLT/impl/xslt_functions.hpp: KeyFunction", "include/XSLT/impl/xslt_key.hpp: Key, DeclaredKeys"]}
{"id": "C81", "title": "Nothing an error handler was told is lost from its text", "statement": "A parse exception says its line, column and message and keeps its identifiers through any copies and assignments. After any sequence of warnings, errors, fatal errors and resets, CatchErrorHandler says that errors were reported exactly if something was since the last reset, and its text tells what: two histories with the same text reported the same lines, columns and messages in the same order.", "quantifier": "all messages, identifiers and positions, all sequences of constructions, copies and assignments, and all sequences of calls of the handler", "why_tests_cant": "that no two histories give the same text is about all pairs of histories", "anchors": ["include/SAX/SAXParseException.hpp: SAXParseException, setMsg, what, operator=", "include/SAX/SAXException.hpp: SAXException", "include/SAX/helpers/CatchErrorHandler.hpp: CatchErrorHandler, hold, errorsReported, reset"]}
{"id": "C82", "title": "An event tells what it was initialised with, through every handle, for as long as one refers to it", "statement": "After any sequence of creating events, copying and dropping handles, initEvent, initMutationEvent, stopPropagation and preventDefault, an event asked through any handle tells the type, the flags and the details of the last initialisation made through any handle of the same event. It counts as stopped exactly if it was asked to stop while it could be cancelled. It is destroyed exactly when no handle refers to it any more. A program that uses no null handle does nothing undefined.", "quantifier": "all sequences of operations on any number of handles and events, all texts and flags", "why_tests_cant": "sharing and lifetimes depend on the whole history of copies; use after free is often silent in a test", "anchors": ["include/DOM/Simple/EventImpl.hpp: EventImpl, initEvent, stopPropagation, addRef, releaseRef", "include/DOM/Simple/MutationEventImpl.hpp: MutationEventImpl, initMutationEvent", "include/DOM/Simple/DocumentEventImpl.hpp: createEvent", "include/DOM/Events/Event.hpp: Event", "include/DOM/Events/MutationEvent.hpp: MutationEvent", "include/DOM/Proxy.hpp: setImpl"]}
{"id": "C83", "title": "A saved locator tells where the document was when it was saved", "statement": "A LocatorImpl made from a reader's locator, and every copy of it, tells the identifiers, line and column of the moment it was made, or what was set in that field since, whatever the reader and other locators do later. Saving the reader's locator by assignment, as the documentation shows, is defined and does the same.", "quantifier": "all sequences of moves of the reader, constructions, copies, assignments and settings, all identifiers and positions", "why_tests_cant": "independence of the later history is about all histories, and a missing return statement often goes unnoticed", "anchors": ["include/SAX/helpers/LocatorImpl.hpp: LocatorImpl, operator=, setPublicId, setSystemId, setLineNumber, setColumnNumber", "include/SAX/Locator.hpp: Locator"]}
