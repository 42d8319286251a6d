# Formal model of arabica in Coq: design

The source is `/repo` (C++ templates). The model is a set of executable Gallina
functions under `rocq/theories`. The theorems are about this model; the tie to
the code is the file/line citation on each definition.

## Layout

* `theories/Model/*.v`: the code, function by function. No proofs.
* `theories/Spec/*.v`: small independent specifications used in statements.
* `theories/Proof/*.v`: lemmas and proofs.
* `theories/Props/*.v`: the property theorems only. Each is closed by `exact`,
  is followed by `Print Assumptions`, and has an `Example` showing that its
  hypotheses are met by a concrete non-trivial case.

## Conventions

* Characters are `Z` (code units); strings are `list Z`. `std::string` sizes are
  unbounded (`nat`).
* `char`, `unsigned char` and `wchar_t` widths are written out where they matter.
* Undefined behaviour, exceptions and non-termination (fuel exhausted) are
  distinct outcomes, never a default value.
* Where the unchanged code violates a property, the theorem is named
  `..._refuted` and exhibits a witness. What does hold is proved beside it,
  with the suffix `_partial` when it is weaker than the property.
* Templates are modelled at one instantiation: `std::string`/`std::wstring` with
  the default string adaptor.

## Plan per property

| Id | Modelled | Proof idea |
|----|----------|------------|
| C01-C03 | base64 `do_out`/`do_in` as state machines over (position, previous byte) | induction on 3-byte groups; finite sweep for 6-bit digits; buffer splits by a step-function decomposition |
| C04 | rot13 table | finite sweep over 256 bytes, lifted to lists |
| C05-C07 | the UTF-8 / UTF-16 converters with their destination-capacity checks | arithmetic on code points, induction on the string |
| C08-C09 | reads outside the buffer are an `UB` outcome; `do_length` with fuel | invariant; refutations by witness |
| C10 | escaper functors folded over strings, an entity decoder as spec | induction |
| C11-C12 | range tables, `is_ncname`, `is_qname`, `parseQName` | sweep over 65536 characters; induction |
| C13 | the loop of `normalize_whitespace` | refinement to split/join |
| C14-C15 | `URI::parse`, `as_string`, `combinePath` with string `find`/`erase` and their exceptions | case analysis; refutations by witness |
| C16-C17 | stack of multimaps | refinement to scoped dictionary |
| C18 | stack of (depth, base) | invariant relating stack to the open-element path |
| C19 | deque of attribute records | refinement to list |
| C20-C23 | filters as state machines from event lists to event lists or text | simulation; reader for the output as specification |
| C24-C26 | heap of DOM nodes, operations step by step in the order of the code | invariant over operation histories |
| C27 | attribute deques with owner element and orphan flags | invariant over histories |
| C28-C29 | string operations with INDEX_SIZE_ERR; text splitting and normalize on trees | refinement |
| C30 | cached list with change counter | invariant; refutation |
| C31 | TreeWalker on trees with filter | equality with filtered pre-order |
| C32 | listener lists and the dispatch loop | refinement to the specified call order |
| C33 | handles and counters | invariant; refutation for self assignment |
| C34 | stream output of a tree with its prefix stack | reader / resolver as specification |
| C35 | SAX2DOM state machine | round trip tree -> events -> tree |
| C36-C40 | nodes as paths/zippers into trees; compareNodes, axis walkers, NodeSet, comparison functions, predicates | refinement to list-based specification |
| C41-C42 | string functions on lists, numbers as `spec_float` or rationals | induction, refutations |
| C43-C49 | variable stack, precedence vectors, template tables, sort, output state machine, namespace stack, keys | refinement, order axioms, invariants |
| C50, C55-C58 | the HTML parser: the scanner's state table, the schema table, the element stack, `scan`, `entity`, `pcdata`, `decl`, `cmnt`, `pi`, `aname`, `gi` | invariant over scanner callbacks for any input; table facts by computation, lifted by induction over the text |
| C51-C52 | the DOM heap of C24 with node kinds; ownership lists of the documents | invariant over operation histories |
| C53 | the expression tree with `evaluate`, function library, arithmetic, comparison, paths | refinement to a relational meaning of XPath 1.0 (big step) of every value given; and a second induction over the expression for that evaluation ends with a value or an exception |
| C54 | the variable stack and top level declaration | any evaluation order gives the meaning of the dependency graph; refutations |
| C59 | the stream sink under the output state machine of C48 | reader as specification, tree of the instructions as result |
| C60 | template application and all body instructions, with the context frames | sound and complete for a relational reading of XSLT 1.0; termination for sheets that go down the document |
| C61 | match patterns: the upward steps they become, rewriting of positional predicates | equivalence, for every node, with the pattern read downward as an expression from some ancestor |
| C62 | the XPath grammar as parsers of ordered choice, the syntax trees Spirit makes, their compilation to expressions | every text derived by XPath's grammar (an independent inductive definition) compiles to its expression; induction over derivations; dissolved parentheses do not change the meaning, so with C53 the value is that of the written text |
| C63 | the grammar and compilation of attribute value templates, on top of C62 | a template derived by XSLT's rules (inductive definition) compiles, and its value is the concatenation of the pieces' strings; a lone right brace is rejected; the empty template is refuted |
| C64 | the grammar of patterns, their compilation to matchers and defaultPriority, on top of C61 and C62 | a pattern derived by XSLT's rules (inductive definition) compiles to the steps of C61, with XSLT's default priority under a stated condition; chained with C61 to what is matched; blanks and predicates that change priorities, `node( )`, and rejected patterns are refuted by witnesses |
| C65 | `Model/XSheet.v`: the compiler as a machine over SAX events: StylesheetHandler, CompilationContext and all handlers but those of xsl:include and xsl:import, with the attribute validation of `gather`. Compiling expressions, patterns and names are parameters. `Spec/XSheetSpec.v`: XSLT's element syntax as mutual inductive relations between document trees and instructions. | Completeness by mutual induction over the relations: the events of the content take the stack with a container on top to the same stack with the instructions added. No broken handler by an invariant over all event sequences. Refusal: what compiles is a stylesheet of the grammar in `Spec/XSheetGrammar.v` (`compile_fits`), by an invariant that relates the stack to the part of the document read. Refuted: attributes of other namespaces, xml:space, namespace="", current() before the first pattern, late aliases, #default, leniency in xsl:call-template. |
| C66 | `Model/Wrapper.v`: both readers as functions from the callbacks of the library to calls on the handlers, over the model of NamespaceSupport (C16), with an explicit state that survives a parse. The libraries are not modelled: `calls` in `Spec/WrapperSpec.v` says which callbacks they make for a document tree. The spec scopes prefixes as dictionaries along the tree. | Induction on trees with the invariant that contexts and dictionaries agree and that only an open CDATA section is pending. expat's reader ends the wrong mappings, so for it the exact theorem asks that every element declares one; without that, all events but the ends are exact. |
| C67 | `Model/ContentText.v`: both `convertXML_Content` functions and the attribute modes. `Spec/ContentTextSpec.v`: a recursive descent reader of content models. | Round trip by induction on content particles, with enough fuel shown from the length of the text. |
| C68 | `Model/Garden.v`: the combinators of Spirit classic as assumed (ordered choice, greedy repetition, actions not undone, the place reached kept after failure), the grammar of the Garden parser and its actions; reading beyond the end of the text is UB. `Spec/GardenSpec.v`: documents with all their spellings, and what SAX tells of them. | The grammar reads each spelling: induction on nodes, with lemmas that say what each parser reads and where it stops without saying anything. Termination: each repetition takes at least a character. |
| C69 | `Model/Clone.v`: importNode, the cloneNode functions of all classes of nodes, default attributes, references made from entities, setReadOnly, cloning a document; on the heap of `Model/Dom.v` with maps of attributes. `Spec/CloneSpec.v`: the tree at a node, what its copy is, and that all else is untouched. | Induction on the derivation of what the copy is, with an invariant for a node being made (its nodes are new, the old are untouched); freezing and appending have exact lemmas. |
| C70 | `Model/XInclude.v`: the IncludeHandler with its stacks, the TextCoalescer before it, switching of the content handler, ImportStack, loops, errors in documents; over any machine of handlers, and over the compiler of `Model/XSheet.v`. `Spec/XIncludeSpec.v`: documents unfolded along includes and imports into the import tree of `Spec/PrecedenceSpec.v`; stylesheet modules. | Induction on the unfolding, simulation of the main and the included documents, unwinding of the import stack; then by the lemmas of C65 for each document. Termination by the chain of documents being read, which has no repetition. |
| C71 | `Model/ConvertIo.v`: the buffer of the converting stream adaptor (`underflow`, `readIn`, `pbackfail`) with its vector, pointers, left-over bytes and memcpy, over any codecvt facet; the facets of `Convert` and `Base64` as such. `Spec/ConvertIoSpec.v`: what it is for a facet to follow a form; a place moving in a text. | An invariant tying buffer, left-over bytes and source to the text before and after the place; by induction over the calls. memcpy out of bounds or overlapping is UB, excluded where it can be. |
| C72 | The writing side of the same buffer, and the loops of `StringAdaptor.hpp`. | Induction over the calls and over the text; that the loop ends by the characters left. |
| C73 | Handles, counters and streams as a memory of cells; operations as the member functions of `IStreamHandle`. | Invariant: each counter counts the handles that share it; simulation of the abstract owner relation. |
| C74 | The socket's buffer over what recv and send answer; the loop that skips header lines. | Simulation of a place moving in the whole text, as for C71; induction over the calls and the headers. |
| C75 | `InputSourceResolver::open` over files as a function of names and resolvers as functions of the system identifier. | The registry by induction over its history; the rest by the parsing of URIs (C14). |
| C76 | The tables of functions of XPath and XSLT, resolution of calls, `function-available`, `element-available`, `system-property`, `generate-id` over addresses of nodes, `document()` over documents as a function of places. | Cases over the tables, proved equal to a separately written table of the two Recommendations; digits of addresses by induction; documents by induction over the calls. |
| C77 | The set of ID attributes of a document over the calls of C27, and `getElementById`, in any order of addresses. | Invariant by induction over the calls: attributes with an ID name that are on an element are in the set. |
| C78 | External entities of the expat reader: the map of names by identifiers, what is told at declarations and references, and entities read in entities. expat is given by its callbacks. | Induction over the expansion of the text, with the map of names kept in step with the declarations; for the matching of beginnings and ends, induction on the fuel. Sharing of identifiers, and reuse of a reader, are refuted. |
| C79 | A heap of filters and readers that point to each other: parents, handlers, features, and the parse that sets the handlers of each parent and delivers events up the chain. Also the map of features of the DOM parser. | Chains are shown to be free of repetition; induction down the chain gives the way of an event up it. Readiness of readers is an invariant over histories of calls. The map of features is kept sorted, so that the order of setting is known. What a feature does to the others is by cases on its name. |
| C80 | The patterns key('n','v') and id('v'): their text through the grammar (XPattern), the function made for them, and the try of a node: the function's result, and whether the node is in it. | The grammar's parse of every spelling is derived rule by rule; the tries are an induction over the history with the invariant of the keys' caches from C49. |
| C81 | Parse exceptions with the message of their base and their own, C strings, numbers of 64 bits in decimal; variables with exceptions; the handler that joins their texts. | Refinement to the problems the variables were given; decimal texts by induction on the digits; the joined text is cut at its separators, and at the words that begin each exception, which cannot overlap. |
| C82 | Events as objects with counts and members that may be unset; handles as variables; creating, assigning, dropping, initialising, stopping. | Invariant over histories: the count of an event is the number of handles that refer to it, told from the history alone; refinement of what is told to the last initialisation; which step is undefined is decided exactly. |
| C83 | A reader's locator that moves and variables of type LocatorImpl; constructions, copies, assignments, setters. | Refinement, field by field, to what the history says was saved or set last. |

## Trusted base

* Coq 8.16.1's kernel (`coqc`; `coqchk -o` was run over the compiled library).
* `Print Assumptions` follows every theorem in `theories/Props`. Every one of them
  prints `Closed under the global context`: no axiom is used, neither of the
  standard library nor of another library. No functor, module type, `Variable`
  outside a section, `Admitted`, or switched-off check is used. The axioms that
  are merely present in loaded standard library files (`Coq.ssr`) are not used by
  any theorem.
* Floating point is `Coq.Floats.SpecFloat` (plain definitions over integers), not
  primitive floats; that it is what the C++ compiler's `double` does is trusted.
* The reading of the C++ into the model. Each definition cites the lines it models.
* The meaning of the C++ library functions the model restates: `find`, `substr`,
  `erase`, `replace`, `map`, `multimap`, `deque`, `sort`, `stable_sort`, `unique`,
  `lexical_cast`, stream insertion of numbers and strings, `isspace` in the C locale.
* How Boost.Spirit (classic) parses and builds syntax trees with `ast_parse`: ordered
  choice, greedy repetition, a rule that keeps a single subtree as it is and else puts
  a node above its subtrees, empty matches without nodes, `token_node_d` and
  `discard_node_d`. Spirit itself is not in the repository.

## What is modelled

| Part of the code | Model | Left out |
|------------------|-------|----------|
| `src/convert`, `include/convert`, `io/convert_adaptor.hpp`, `io/convertstream.hpp`, conversions of `StringAdaptor.hpp` | Base64, Convert, ConvertIo | the deprecated `do_encoding` answers; changing the locale of a stream in use |
| `XML/` (escaper, strings, QName, character classes), `text/` | Text, Chars, Containers | UnicodeCharacters constants beyond those used |
| `io/uri.hpp`, `io/socket_stream.hpp` | Uri, Socket | connecting; Winsock; wide characters over sockets |
| `SAX/IStreamHandle.hpp`, `SAX/InputSource.hpp`, `InputSourceResolver.cpp` | StreamHandle, Socket, Resolver | - |
| `SAX/helpers` NamespaceSupport, AttributesImpl, XMLBaseSupport, CatchErrorHandler, LocatorImpl | NsSupport, Attrs, XmlBase, ErrorText, Locator | AttributeListImpl (SAX 1; it cannot be compiled) |
| `SAX/filter`, XMLFilterImpl | Sax, Writer, FilterChain | features of the readers other than expat (there are no properties in the code) |
| `SAX/wrappers` | Wrapper, ContentText, External | expat and libxml2 themselves (given by the callbacks they make); entities and DTD events of libxml2 other than element and attribute declarations; the wrappers of Xerces and MSXML |
| `SAX/parsers` | Garden (`saxgarden.hpp`: grammar, actions, parse) | resolving of input sources; the value computed for character references (it is not used) |
| `DOM/Simple` tree, attributes, character data, lists, documents, ownership, reference counts | Dom, AttrMap, Ids, Clone, DomText, NormalizeAll, TagList, Handles, Containers | entity reference children of attributes (the code sends no mutation events from its operations) |
| `DOM/Events`, `DOM/Traversal` | Events, EventObject, TreeWalker | NodeIterator (the code has none); the handle DocumentEvent (its Impl() calls itself), targets, phases and times of events |
| `DOM/io/Stream.hpp`, `DOM/SAX2DOM` | Stream, SaxToDom | - |
| `XPath/impl` values, numbers, strings, functions, axes, steps, node sets, comparison, evaluation, match patterns, the grammar of expressions, attribute value templates and patterns, and its compilation | XNode, XNumber, XString, XCompare, XAxis, XNodeSet, XStep, XEval, XMatch, XParse, XPattern | DOM text nodes split by CDATA sections are separate nodes as in the code; custom function and variable resolvers are parameters |
| `XSLT/impl` precedence, templates, sort, output, sink, variables, keys, execution, stylesheet compiler (`handler/`) | Precedence, Template, XSort, XOutput, XSink, XVars, XKeys, XRun, XSheet, XInclude, XFunctions, XKeyPattern | xml:base in stylesheets; `format-number()` does not exist in the code |
| `Taggle` | HtmlSchema, HtmlScanner, Taggle | the byte decoder below it |

Simplifications common to all models: `unsigned` and `int` sizes and positions are
unbounded unless a property is about overflow; memory allocation does not fail;
reference counting of nodes is modelled only where a property is about it (C33, C52).

## Findings

Theorems with the suffix `_refuted` each give an input or history on which the code as
written breaks the property, and are checked by computation. The notes in
`MANIFEST.json` say for each property which part holds and which does not.
