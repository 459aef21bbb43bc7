{"id": "C01", "title": "unescape inverts escape / attribute_escape", "statement": "unescape(escape(t)) returns exactly t (no panic) whenever t's last character is ASCII or t contains none of & < > ' \". Outside that domain the code breaks the law: for every non-ASCII c, unescape(escape(\"&\"+c)) panics, and some texts come back silently changed.", "quantifier": "all Unicode texts t", "why_tests_cant": "unbounded input set; entity interactions (&amp;lt;) and multi-byte characters only show up on particular combinations", "anchors": ["/repo/src/lib.rs: escape, attribute_escape, unescape"]}
{"id": "C02", "title": "unescape inverts text_escape", "statement": "unescape(text_escape(t)) = t whenever t's last character is ASCII or t contains none of & < >; the guard is needed (witness).", "quantifier": "all Unicode texts t", "why_tests_cant": "same as C01: infinitely many texts", "anchors": ["/repo/src/lib.rs: text_escape, unescape"]}
{"id": "C03", "title": "Escaped text carries no markup", "statement": "escape(t) contains none of < > ' \" and every & in it begins one of the five predefined entities; text_escape(t) contains no < or > and every & begins &amp; &lt; or &gt;. Escaping acts character by character: escape(a+b) = escape(a)+escape(b).", "quantifier": "all texts", "why_tests_cant": "a single unescaped delimiter anywhere in any text corrupts the document", "anchors": ["/repo/src/lib.rs: escape, text_escape"]}
{"id": "C04", "title": "Escaping is injective", "statement": "escape(a) = escape(b) implies a = b, and the same for text_escape: two different texts never serialize alike.", "quantifier": "all pairs of texts", "why_tests_cant": "ranges over pairs of strings", "anchors": ["/repo/src/lib.rs: escape, text_escape"]}
{"id": "C05", "title": "unescape is one left-to-right pass", "statement": "On a text ending in an ASCII character whose numeric references denote ASCII characters only, unescape replaces each entity (&amp; &lt; &gt; &apos; &quot; and hexadecimal &#H;) once, scanning left to right, never re-reading its own output, and copies everything else verbatim (so &amp;lt; becomes &lt;, never <). On every other text it still only replaces references by their characters, but after each one it skips as many bytes as the last character of the text has, so later references can be missed; the exact result is determined for every text.", "quantifier": "all such texts; for the exact result, all texts", "why_tests_cant": "double-unescaping bugs need particular nestings of entities", "anchors": ["/repo/src/lib.rs: unescape, string_insert"]}
{"id": "C06", "title": "unescape terminates; where it can panic", "statement": "unescape always terminates. It never panics on ASCII-only text without '&#'. It does panic on every text '&c' with c non-ASCII and on every numeric reference to a non-ASCII character followed by an ASCII-ending tail. The texts on which it panics are exactly those where that skip ends inside a character.", "quantifier": "all texts", "why_tests_cant": "absence of panics and loops is a statement about all inputs", "anchors": ["/repo/src/lib.rs: unescape"]}
{"id": "C07", "title": "unescape is the identity without '&' and never grows text", "statement": "If t contains no & then unescape(t) = t; whenever unescape(t) returns, its UTF-8 length is at most that of t.", "quantifier": "all texts", "why_tests_cant": "all inputs", "anchors": ["/repo/src/lib.rs: unescape"]}
{"id": "C08", "title": "Element names are validated exactly", "statement": "Every Element constructor (new, new_from_name, new_with_*) succeeds on a name iff it starts with an ASCII letter or underscore and contains no whitespace (attribute keys satisfying the same rule); otherwise it returns InvalidElementName / InvalidAttributeName and builds nothing.", "quantifier": "all names, attribute maps, texts and child lists", "why_tests_cant": "infinitely many names", "anchors": ["/repo/src/dom.rs: Element::new, new_from_name, check_elem_name, check_attr_name"]}
{"id": "C09", "title": "Attributes behave as a finite map", "statement": "After any sequence of set_attr / remove_attr / clear_attributes, get_attr(k) is the value of the last effective set_attr(k,v) not undone by a removal; set_attr with an invalid name fails and changes nothing; remove_attr returns the value it removed.", "quantifier": "all operation histories", "why_tests_cant": "arbitrary histories", "anchors": ["/repo/src/dom.rs: set_attr, get_attr, remove_attr, clear_attributes"]}
{"id": "C10", "title": "Comment and CDATA terminators never occur in content", "statement": "Comment::new / set_content succeed iff the text has no '-->', CData::new / set_text iff it has no ']]>'; on failure the old content stays; hence after any history of calls the content never contains its terminator.", "quantifier": "all contents and call histories", "why_tests_cant": "arbitrary histories and strings", "anchors": ["/repo/src/dom.rs: Comment::new, Comment::set_content, CData::new, CData::set_text"]}
{"id": "C11", "title": "Text normal form after adding children", "statement": "After append, append_all, set_text or a successful insert, the element has no two consecutive Text children and no Text child consisting of one or more whitespace characters only.", "quantifier": "all elements, nodes and indices", "why_tests_cant": "arbitrary child lists", "anchors": ["/repo/src/dom.rs: append, append_boxed, append_all, insert, cleanup_text_nodes"]}
{"id": "C12", "title": "Text clean-up loses nothing but blank text", "statement": "Adding children never panics, keeps all non-text children in order, and the text between two consecutive non-text children is the concatenation of the old pieces unless that concatenation is whitespace-only, in which case it is dropped.", "quantifier": "all child lists", "why_tests_cant": "index-juggling loops over arbitrary lists", "anchors": ["/repo/src/dom.rs: cleanup_text_nodes, append, append_all, insert"]}
{"id": "C13", "title": "append / append_all put nodes at the end", "statement": "append(n) adds n after all existing children, append_all(ns) adds ns in order after them (each element child first inheriting namespaces), then text clean-up; nothing else of the element changes, and append_all(ns) gives an element == to appending the nodes one by one when no empty or blank text is involved.", "quantifier": "all elements and node lists", "why_tests_cant": "arbitrary lists", "anchors": ["/repo/src/dom.rs: append, append_all"]}
{"id": "C14", "title": "insert is bounds-checked and positional", "statement": "insert(i,n) fails with IndexOutOfBounds(i, 0..len) iff i > number of children, changing nothing; otherwise the children become first i, n, rest (before text clean-up).", "quantifier": "all elements, indices and nodes", "why_tests_cant": "all indices and lists", "anchors": ["/repo/src/dom.rs: insert"]}
{"id": "C15", "title": "remove(i) removes exactly child i", "statement": "remove(i) fails iff i >= number of children, changing nothing; otherwise it returns child i and leaves all the others in order.", "quantifier": "all elements and indices", "why_tests_cant": "all indices and lists", "anchors": ["/repo/src/dom.rs: remove"]}
{"id": "C16", "title": "remove_by deletes exactly the matching children", "statement": "remove_by(p) leaves exactly the children not satisfying p in their order, does not touch grandchildren, and returns the number deleted; it never panics.", "quantifier": "all elements and predicates", "why_tests_cant": "arbitrary predicates and lists, index shifting while removing", "anchors": ["/repo/src/dom.rs: remove_by"]}
{"id": "C17", "title": "remove_all prunes the whole tree", "statement": "remove_all(p) removes a descendant iff it or one of its ancestors below the receiver satisfied p in the original tree; the order of survivors is kept, and the count is the number of topmost matches.", "quantifier": "all trees and predicates", "why_tests_cant": "unbounded depth", "anchors": ["/repo/src/dom.rs: remove_all, remove_all_elements"]}
{"id": "C18", "title": "Element-only removal", "statement": "remove_element(k) removes and returns the k-th child element (IndexOutOfBounds iff there are at most k); remove_elements(p) / remove_elements_by_name(n) delete exactly the matching child elements, return their number and never touch text, comments or CDATA.", "quantifier": "all elements, indices, predicates", "why_tests_cant": "arbitrary mixes of node kinds", "anchors": ["/repo/src/dom.rs: remove_element, remove_elements, remove_elements_by_name, remove_all_elements"]}
{"id": "C19", "title": "set_text replaces the content", "statement": "After set_text(t), children() is exactly one Text node t and text() = t, unless t is non-empty whitespace, in which case the element ends up empty.", "quantifier": "all elements and texts", "why_tests_cant": "all texts", "anchors": ["/repo/src/dom.rs: set_text, clear_children, text"]}
{"id": "C20", "title": "Child look-up by name, namespace and prefix", "statement": "child_elements / elements_by_name / elements_by_namespace / elements_by_namespace_prefix return exactly the matching child elements in order; first_element_by_name returns the first of elements_by_name, and DoesNotExistError iff there is none.", "quantifier": "all elements and keys", "why_tests_cant": "arbitrary trees", "anchors": ["/repo/src/dom.rs: child_elements, elements_by_name, elements_by_namespace, elements_by_namespace_prefix, first_element_by_name"]}
{"id": "C21", "title": "Recursive search visits every descendant exactly once", "statement": "all_children()/search(true) yields a permutation of all descendants (every path below the element exactly once); search, search_elements, search_elements_by_name, search_text, search_comments return exactly the matching ones. The order is: first the children of the element, then everything below each child element in turn (not document order); what is found comes in this order.", "quantifier": "all trees and predicates", "why_tests_cant": "unbounded depth and breadth", "anchors": ["/repo/src/dom.rs: children_recursive, search, search_elements, search_elements_by_name, search_text, search_comments, all_children"]}
{"id": "C22", "title": "text() is the document-order concatenation of text nodes", "statement": "Element::text() is the concatenation, in document order, of the contents of all Text descendants; comments and CDATA contribute nothing.", "quantifier": "all trees", "why_tests_cant": "unbounded depth", "anchors": ["/repo/src/dom.rs: Node for Element::text"]}
{"id": "C23", "title": "Reachable elements keep their invariants", "statement": "Every element obtained from constructors by any finite sequence of API mutations has a valid name, valid attribute names, duplicate-free attribute keys, and descendants with valid names and terminator-free comments/CDATA.", "quantifier": "all finite histories of API calls", "why_tests_cant": "induction over histories", "anchors": ["/repo/src/dom.rs: Element"]}
{"id": "C24", "title": "== is an equivalence relation", "statement": "Equality of nodes, elements and documents is reflexive, symmetric and transitive.", "quantifier": "all nodes / elements / documents", "why_tests_cant": "ranges over triples of trees", "anchors": ["/repo/src/dom.rs: PartialEq for Element, node_eq, PartialEq for Document"]}
{"id": "C25", "title": "clone is faithful", "statement": "clone() of an element or node is == to the original, serializes identically and has the same text, attributes, namespaces.", "quantifier": "all trees", "why_tests_cant": "unbounded depth", "anchors": ["/repo/src/dom.rs: Clone for Element, clone_node"]}
{"id": "C26", "title": "Serialization respects == and ignores hash order", "statement": "If two documents are == then to_string gives identical strings, for every indent and whatever order the attribute hash maps iterate in.", "quantifier": "all pairs of equal documents, all iteration orders, all indents", "why_tests_cant": "HashMap order is random per process", "anchors": ["/repo/src/dom.rs: to_string_with_prefix_and_indent, PartialEq", "/repo/src/lib.rs: attribute_order"]}
{"id": "C27", "title": "Hash agrees with ==", "statement": "Equal elements/text/comments/CDATA feed identical data to the hasher. (Ordering does not agree with ==: partial_cmp can say Equal on unequal elements - witness.)", "quantifier": "all pairs of nodes", "why_tests_cant": "pairs of arbitrary trees", "anchors": ["/repo/src/dom.rs: Hash for Element, PartialOrd for Element"]}
{"id": "C28", "title": "Attributes are written in a fixed total order", "statement": "attribute_order is a total order; the attributes are written as a permutation of the map, sorted with names starting with xmlns first and then by Unicode order of the name.", "quantifier": "all attribute maps", "why_tests_cant": "all maps and iteration orders", "anchors": ["/repo/src/lib.rs: attribute_order", "/repo/src/dom.rs: to_string_with_prefix_and_indent"]}
{"id": "C29", "title": "Indent handling", "statement": "A valid indent is a single tab or any number of spaces; with any other indent the output equals that of the two-space default; to_string() equals to_string_with_indent of two spaces; the document text ends in a newline.", "quantifier": "all documents and indent strings", "why_tests_cant": "all strings", "anchors": ["/repo/src/lib.rs: validate_indent", "/repo/src/dom.rs: to_string_with_indent, to_string"]}
{"id": "C30", "title": "No whitespace is invented in mixed content", "statement": "The serialization of an element having a Text child (and of everything inside it) does not depend on the indent and is the plain concatenation of its children's inline serializations.", "quantifier": "all elements with a Text child, all indents", "why_tests_cant": "unbounded trees", "anchors": ["/repo/src/dom.rs: to_string_with_prefix_and_indent"]}
{"id": "C31", "title": "Serialize-then-parse round trip", "statement": "parse_str(doc.to_string_with_indent(i)) succeeds and is == doc for every well-formed document: names that are XML names, namespaces consistent with the declarations in scope, text normal form, escapable texts, comments not starting with > or ->, no DTDs, xml declaration.", "quantifier": "all well-formed documents of any size and depth, all indents", "why_tests_cant": "universally quantified over trees", "anchors": ["/repo/src/lib.rs: parse_str", "/repo/src/dom.rs: to_string_with_indent"]}
{"id": "C32", "title": "Serialization is a canonical form", "statement": "For well-formed documents, serializing, parsing and serializing again gives the same text, and the parsed document does not depend on the indent used.", "quantifier": "all well-formed documents, all indents", "why_tests_cant": "universally quantified over trees", "anchors": ["/repo/src/lib.rs: parse_str", "/repo/src/dom.rs: to_string_with_indent"]}
{"id": "C33", "title": "Parsing always terminates", "statement": "parse_str returns (Ok, Err or panic) on every input: the scanning position strictly increases at each iteration.", "quantifier": "all input strings", "why_tests_cant": "non-termination cannot be observed by a test", "anchors": ["/repo/src/lib.rs: parse_str, next_tag, unescape"]}
{"id": "C34", "title": "Parsing ASCII input without '&#' never panics", "statement": "On every ASCII input without the substring '&#', parse_str returns Ok or Err. On arbitrary Unicode input every panic comes from unescape or from abbreviating a warning on a piece of the input; both happen (witnesses: <a>&amp;\\u263c</a>, and a multi-byte comment before the root).", "quantifier": "all input strings", "why_tests_cant": "absence of panics over all inputs", "anchors": ["/repo/src/lib.rs: parse_str, unescape, abbreviate"]}
{"id": "C35", "title": "Accepted input has balanced tags", "statement": "If parse_str accepts the input then its sequence of element tags is balanced: every closing tag names the innermost open element and no element is left open.", "quantifier": "all accepted inputs", "why_tests_cant": "all inputs", "anchors": ["/repo/src/lib.rs: parse_str", "/repo/src/parsing.rs: push, pop, top_element"]}
{"id": "C36", "title": "The parse tree never hits a logic error", "statement": "For every history of push / append / pop calls starting from the empty tree, to_dom either reports 'no root element' (nothing pushed) or returns an element; none of the internal expects/unwraps can fire.", "quantifier": "all operation histories", "why_tests_cant": "all histories", "anchors": ["/repo/src/parsing.rs: ParseTree::push, append, pop, top_element, to_dom"]}
{"id": "C37", "title": "The parse tree rebuilds the tree in document order", "statement": "Feeding a tree's open / leaf / close events to the arena and calling to_dom yields that tree with children in document order.", "quantifier": "all trees", "why_tests_cant": "unbounded trees; reversed, id-based reconstruction", "anchors": ["/repo/src/parsing.rs: ParseTree::to_dom, append_boxed, reverse_children"]}
{"id": "C38", "title": "Root uniqueness", "statement": "After a self-closing root any further tag is rejected; after a closed root any self-closing element, text followed by a tag, comment or CDATA is rejected. A second non-self-closing root is NOT rejected: it replaces the first and inherits its children (witness).", "quantifier": "all inputs", "why_tests_cant": "all inputs", "anchors": ["/repo/src/lib.rs: parse_str", "/repo/src/parsing.rs: ParseTree::push"]}
{"id": "C39", "title": "Prefix namespaces resolve to the nearest declaration", "statement": "In a parsed document, a prefixed element's namespace() is the value of the nearest xmlns:prefix attribute on itself or an ancestor; an undeclared prefix on the root is an error. (Proviso: no proper ancestor carries an attribute called xmlns:xmlns:prefix, which the crate also reads as a declaration of the prefix - witness.)", "quantifier": "all well-formed documents", "why_tests_cant": "unbounded nesting", "anchors": ["/repo/src/lib.rs: parse_new_element", "/repo/src/dom.rs: set_namespace_context, xmlns_context_from_attributes"]}
{"id": "C40", "title": "Default namespace inheritance", "statement": "In a parsed document an unprefixed element's namespace() is its own xmlns attribute, else its parent's namespace when the parent is unprefixed, else None. (So a prefixed element in between hides an outer default namespace, contrary to XML - witness.)", "quantifier": "all well-formed documents", "why_tests_cant": "unbounded nesting", "anchors": ["/repo/src/lib.rs: parse_new_element", "/repo/src/dom.rs: set_namespace_context, default_namespace"]}
{"id": "C41", "title": "append inherits namespaces, insert does not", "statement": "append / append_all give an unprefixed child without namespace the parent's default namespace, never override an existing one, and resolve a child's prefix from the parent's context; the operation is idempotent. insert applies this to the last child instead of the inserted one (witness).", "quantifier": "all elements and children", "why_tests_cant": "arbitrary trees", "anchors": ["/repo/src/dom.rs: append_boxed, append_all, insert, set_namespace_context"]}
{"id": "C42", "title": "XML declaration is kept verbatim", "statement": "Declaration::from_str accepts exactly trimmed strings <?...?> and displays them back verbatim; parse_str keeps the declaration text. '<?>' panics (witness).", "quantifier": "all declaration strings", "why_tests_cant": "all strings", "anchors": ["/repo/src/dom.rs: Declaration::from_str, Display for Declaration", "/repo/src/lib.rs: parse_str"]}
{"id": "C43", "title": "DTDs are collected in order but displayed without their delimiters", "statement": "DTD::from_string accepts exactly trimmed strings <!DOCTYPE...>; parse_str keeps all of them in order. Display drops '<!DOCTYPE' and '>', so what is written of a document whose first DTD says anything but white space before a '<' (in XML: the name of the root element), with any indent, is never accepted again, not even as another document; in particular loading such a document and saving it makes a file that cannot be loaded (write_to_filepath reports no error).", "quantifier": "all DTD strings; all documents with a DTD, all indents", "why_tests_cant": "all strings", "anchors": ["/repo/src/dom.rs: DTD::from_string, Display for DTD", "/repo/src/lib.rs: parse_str"]}
{"id": "C44", "title": "Quote style is irrelevant", "statement": "Replacing the delimiters of attribute values (single vs double quotes) in a well-formed document, with values containing neither quote, gives the same parse result.", "quantifier": "all well-formed documents", "why_tests_cant": "universally quantified over documents", "anchors": ["/repo/src/lib.rs: parse_new_element, quote_aware_split, quote_aware_find"]}
{"id": "C45", "title": "Insignificant formatting is irrelevant", "statement": "Whitespace between attributes, before > or />, in closing tags, around child elements of text-free content, before and after the root, and comments before the root do not change the parsed root element.", "quantifier": "all well-formed documents and formattings", "why_tests_cant": "universally quantified over documents", "anchors": ["/repo/src/lib.rs: parse_str, strip_tag, real_text"]}
{"id": "C46", "title": "Spaces around '='", "statement": "Splitting a tag into components and re-joining merges key, =, value pieces so that k=v, k =v, k= v and k = v read alike; but the tag check accepts spaced attributes only after an unspaced one (witness: <r b = \"2\"/> is rejected).", "quantifier": "all attribute lists", "why_tests_cant": "all inputs", "anchors": ["/repo/src/lib.rs: join_spaced_attributes, check_element_tag"]}
{"id": "C47", "title": "Duplicate attributes: last one wins", "statement": "When a tag repeats an attribute the parsed map has it once, with the last value.", "quantifier": "all tags", "why_tests_cant": "all inputs", "anchors": ["/repo/src/lib.rs: parse_new_element"]}
{"id": "C48", "title": "Every parsed document is well-formed", "statement": "Whenever parse_str succeeds, in the resulting DOM every element has a valid name and valid distinct attribute names, comments and CDATA contain no terminator, no element has adjacent or blank text children.", "quantifier": "all accepted inputs", "why_tests_cant": "all inputs", "anchors": ["/repo/src/lib.rs: parse_str", "/repo/src/parsing.rs: to_dom"]}
{"id": "C49", "title": "Text content is preserved verbatim", "statement": "Text between tags becomes a Text node with exactly the unescaped text, leading and trailing whitespace included; whitespace-only text never becomes a node; CDATA and comments are kept verbatim.", "quantifier": "all well-formed documents", "why_tests_cant": "all inputs", "anchors": ["/repo/src/lib.rs: real_text, parse_str"]}
{"id": "C50", "title": "Error positions", "statement": "The line in a syntax error is 1 + the number of newlines up to and including the reported position; the column is 1 + the number of characters since the last newline, counting the character at the position.", "quantifier": "all inputs", "why_tests_cant": "all inputs", "anchors": ["/repo/src/lib.rs: line_and_column"]}
{"id": "C51", "title": "Byte order equals code-point order; UTF-8 round trip", "statement": "Comparing strings by UTF-8 bytes (as Rust does) is the same as comparing code points, and decoding the UTF-8 encoding gives back the text.", "quantifier": "all strings of Unicode scalar values", "why_tests_cant": "all strings", "anchors": ["/repo/src/lib.rs: attribute_order"]}
{"id": "C52", "title": "Files and streams parse like strings", "statement": "parse_filepath / parse_stream on valid UTF-8 content equal parse_str on it; content that is not UTF-8 or unreadable gives IOError; writing a document to a file and reading it back gives the parse of its to_string.", "quantifier": "all contents", "why_tests_cant": "all contents", "anchors": ["/repo/src/lib.rs: parse_filepath, parse_stream", "/repo/src/dom.rs: write_to_filepath, write_to_file"]}
{"id": "C53", "title": "Updates through *_mut look-ups touch exactly the designated children", "statement": "Changing nodes through children_mut changes every child in place; changing elements through child_elements_mut, elements_by_name_mut, elements_by_namespace_mut, elements_by_namespace_prefix_mut or first_element_by_name_mut changes exactly the children that the corresponding read-only look-up designates, leaving every other child, the order of children and all other fields of the parent as they were; first_element_by_name_mut fails with DoesNotExistError exactly when no child has the name.", "quantifier": "all elements, names, namespaces, prefixes and all changes made through the references", "why_tests_cant": "all trees and all updates", "anchors": ["/repo/src/dom.rs: children_mut, child_elements_mut, elements_by_name_mut, elements_by_namespace_mut, elements_by_namespace_prefix_mut, first_element_by_name_mut"]}
{"id": "C54", "title": "Every node has one kind, and casts follow it", "statement": "Every node is exactly one of element, text, comment, CDATA; node_type and the four is_* tests agree with it; as_X and as_X_mut give the node's contents when it is an X and fail with TypeCastError otherwise; clone_node, node_eq and the child-by-child loop of == never panic and mean copy and equality; nodes of different kinds are never equal; leaves serialize independently of the indent; Comment/CData built with From panic exactly when the text contains the terminator.", "quantifier": "all nodes, indents, texts and changes made through the references", "why_tests_cant": "all nodes", "anchors": ["/repo/src/dom.rs: Node, DomNodeType, clone_node, node_eq, PartialEq for Element"]}
{"id": "C55", "title": "Parts of a document are independent", "statement": "Document::new has the given root, the default XML declaration and no DTDs; new_with_decl_dtd has exactly the parts given; set_declaration, set_doctype_defs, doctype_defs_mut and root_element_mut change the part they name and nothing else; two documents are equal exactly when declaration, DTD list and root are equal.", "quantifier": "all documents and parts", "why_tests_cant": "all documents", "anchors": ["/repo/src/dom.rs: Document::new, new_with_decl_dtd, set_declaration, set_doctype_defs, doctype_defs_mut, root_element_mut, PartialEq for Document, Declaration::new"]}
{"id": "C56", "title": "Namespace accessors", "statement": "tag_name is prefix:name if the element has a prefix and the name otherwise; default_namespace is the namespace of an unprefixed element and None for a prefixed one; namespace_prefixes is None exactly when the element has no attribute xmlns:p, and otherwise maps p to the value of attribute xmlns:p and contains nothing else.", "quantifier": "all elements and prefixes", "why_tests_cant": "all attribute tables", "anchors": ["/repo/src/dom.rs: tag_name, default_namespace, namespace_prefixes, xmlns_context_from_attributes"]}
{"id": "C57", "title": "Comparison of nodes is an order", "statement": "partial_cmp of texts, comments and CDATA sections is a total order (the string order) whose equality is equality; partial_cmp of elements always answers, orders by name, and is a total preorder that answers Equal on equal elements.", "quantifier": "all texts and elements", "why_tests_cant": "transitivity and antisymmetry range over all triples", "anchors": ["/repo/src/dom.rs: PartialOrd for Element, Text, Comment, CData"]}
{"id": "C58", "title": "Error messages", "statement": "Making a ParsingError from a message drops every leading 'ParsingError: ' and nothing else, so however often parsing errors are wrapped the prefix is displayed once; errors of the crate (other than I/O errors) display differently unless they are the same error; an index error below 2^63 displays the index and the valid range in decimal.", "quantifier": "all messages, indices and error values", "why_tests_cant": "all messages and nestings", "anchors": ["/repo/src/errors.rs: ParsingError::new, Display for KissXmlError, IndexOutOfBounds"]}
{"id": "C59", "title": "Parsed documents can be written and read back", "statement": "A document obtained by parsing (one root, no DTDs, XML names, texts and values that survive escaping) is written with any indent and parsed again to an == document, and further cycles change nothing. For ASCII sources without '#' only the condition on names is needed. It is false without the condition on texts: some non-ASCII texts gain a character reference in every cycle.", "quantifier": "all accepted sources with one root, all indents", "why_tests_cant": "composition of parser, DOM and serializer over all inputs", "anchors": ["/repo/src/lib.rs: parse_str, unescape", "/repo/src/dom.rs: Document::to_string_with_indent"]}
{"id": "C60", "title": "Parsing invents no characters", "statement": "Every character of every name, prefix, namespace, attribute, text, comment, CDATA section, declaration and DTD of a parsed document comes from the source or is denoted by a character reference made of its characters; so parsing Unicode text gives Unicode text, and a file can be read, written elsewhere and read again to an == document.", "quantifier": "all sources, all character classes closed under references, all files", "why_tests_cant": "an invariant of all intermediate states of the parser", "anchors": ["/repo/src/lib.rs: parse_str, parse_filepath, parse_new_element, strip_tag", "/repo/src/dom.rs: write_to_filepath_with_indent"]}
{"id": "C61", "title": "Only the meaning of a source counts", "statement": "Two well-formed sources are parsed to == documents exactly if they have the same declaration, DTDs and element structure, the same decoded last value for every attribute, the same decoded texts, comments and CDATA sections; and then they are serialized to the same text. Attribute order, overridden duplicates, choice of references or literal characters, quotes, layout, prolog comments and <a/> versus <a></a> make no difference.", "quantifier": "all pairs of well-formed sources", "why_tests_cant": "an equivalence over all pairs of inputs", "anchors": ["/repo/src/lib.rs: parse_str, parse_new_element, unescape", "/repo/src/dom.rs: PartialEq for Document, Element"]}
{"id": "C62", "title": "Every rejection has its reason in the text, at the reported place", "statement": "parse_str returns an error if and only if reading the input tag by tag comes to something wrong, and then what the error names is wrong with the input at the place it names: no content, an unclosed '<', text before the root, a late XML declaration, a closing tag first, a malformed tag, an attribute without '=', value or quotes, an undeclared prefix on the outermost element, an invalid name, a second root after a self-closing one, content after the root, a too short comment, unsupported markup (quoted, shortened to its first 15 and last 16 bytes), a closing tag whose name is not that of the innermost open element (both are quoted), or an element left open. No other kind of error (type cast, index, content, I/O) and none of the messages 'Unclosed CDATA', 'closing tag without corresponding open tag', 'Invalid XML declaration syntax', 'Invalid DTD syntax' ever results from parsing.", "quantifier": "all strings, all errors", "why_tests_cant": "Tests check a handful of malformed inputs and mostly only that some error is returned; that the reason given is always true of the input, whatever precedes it, needs all inputs.", "anchors": ["src/lib.rs:parse_str", "src/lib.rs:parse_new_element", "src/lib.rs:check_element_tag", "src/parsing.rs:ParseTree"]}
{"id": "C63", "title": "Error messages say what happened, where, and quote the right text", "statement": "The displayed text of an error from parse_str starts with its kind, once, even when errors are nested; if the error has a position, the text contains 'line L, column C' in decimal and (L, C) is the position of the '<' of a tag or of text outside the root; the message of a mismatch quotes the closing tag and the name of the innermost open element; casts name both node kinds, name errors quote the name, index errors show the index and the range 0 to the number of children. (remove shows the number of children as the last valid index although it is refused.)", "quantifier": "all strings; all nodes and casts; all elements and indices below 2^63", "why_tests_cant": "Tests compare a few messages; that every message carries the right numbers and quotes for every input is a statement about all inputs.", "anchors": ["src/errors.rs", "src/lib.rs:parse_str", "src/lib.rs:parse_new_element", "src/dom.rs:check_elem_name", "src/dom.rs:Node"]}
{"id": "C64", "title": "Exactly which inputs are accepted, rejected, or panic", "statement": "parse_str returns a document if and only if the input can be read tag by tag to its end: prolog tags with only white space between them, an XML declaration only as first tag or after a tag at offset 0, then the tag of the root element; then, unless the root is self-closing, each further tag in its order, an opening or self-closing tag having the form the crate looks for, readable attributes, valid names and, outside any open element, a declared prefix, a closing tag naming the innermost open element, text outside blank, comments not too short; and no tag left over or element left open at the end. It returns an error if and only if reading stops at something wrong, and the error is the one described for it (only the choice among several invalid attribute names of one tag is open). It panics if and only if reading comes to a text or attribute value with a reference that cannot be decoded, or to the first prolog comment or unsupported markup of more than 32 bytes that cannot be cut after 15 bytes and before the last 16. The three cases never overlap.", "quantifier": "all strings", "why_tests_cant": "An exact description of the accepted language, with the error of every other input, quantifies over all strings; tests can only sample both sides of the border.", "anchors": ["src/lib.rs:parse_str", "src/lib.rs:parse_new_element", "src/lib.rs:check_element_tag", "src/lib.rs:quote_aware_split", "src/lib.rs:join_spaced_attributes", "src/lib.rs:strip_tag", "src/lib.rs:abbreviate", "src/parsing.rs:ParseTree"]}
{"id": "C65", "title": "Errors and panics do not depend on what follows", "statement": "If parse_str panics on a text it panics on every longer text that starts with it. If it returns an error, then every longer text gives the same error (message and position) if and only if the text does not end within a tag or before the root element is closed; a text that ends so is always rejected, with 'no content', 'root element not closed', \"'<' has no matching '>'\" or 'invalid syntax', and something can be added after which that error is no longer the one reported. Every beginning of an accepted text is accepted itself or ends within a tag or before the root is closed. Text without '<' after an accepted text is ignored: the document is the same.", "quantifier": "all strings and all continuations", "why_tests_cant": "It relates the results for unboundedly many continuations of every text.", "anchors": ["src/lib.rs:parse_str", "src/lib.rs:next_tag", "src/lib.rs:line_and_column"]}
{"id": "C66", "title": "What is printed on stderr", "statement": "parse_str prints warnings for the prolog only, as far as it can be read and whether or not the text is then accepted: for the first comment one that shows it, shortened to its first 15 and last 16 bytes if it has more than 32; for every '<!...>' that is neither a comment nor a DTD one that shows it in full; in order of the tags; nothing for further comments, DTDs and the XML declaration, and nothing from the root element on. Printing has no effect on the result. Serialization with an indent that is neither a single tab nor spaces warns exactly once, with a proper indent never.", "quantifier": "all strings; all documents, elements and indents", "why_tests_cant": "Tests do not look at stderr; that nothing else is ever printed is a statement about all inputs.", "anchors": ["src/lib.rs:parse_str", "src/lib.rs:abbreviate", "src/lib.rs:validate_indent", "src/dom.rs:Document::to_string_with_indent", "src/dom.rs:Element::to_string_with_indent"]}
{"id": "C67", "title": "The document a text stands for", "statement": "The document read from a text with a single root element is determined in every respect by the text: the last XML declaration, the DTDs in order, and the tree whose elements carry the name written in the tag split at its first colon, the decoded attributes with the last of several with one name counting, the namespace found by the scoping rule and the table of prefixes in scope, and whose children are, in order, the nested elements, comments, CDATA sections and the decoded texts that are not white space. The description is complete: a text stands for one document only up to the order of attributes, so any text that can be read to its end yields that document, and two texts with the same tags and texts after decoding yield equal trees.", "quantifier": "all strings with a single root element; all documents", "why_tests_cant": "An exact functional specification of the parser's result for arbitrary texts and depths; tests compare single documents and mostly single fields.", "anchors": ["src/lib.rs:parse_str", "src/lib.rs:parse_new_element", "src/parsing.rs:ParseTree", "src/dom.rs:Element::new", "src/dom.rs:Element::set_namespace_context"]}
{"id": "C68", "title": "Exactly which documents survive being written and read back", "statement": "A document whose names are ordinary XML names, written with any indent and parsed again, yields an equal document if and only if: it has no DTD; its declaration, if any, starts with xml and contains no earlier '?>' outside quotes; a prefix of the root is declared on the root; and at every depth each element's namespace is the one the scoping rule gives, child texts are neither adjacent nor empty nor blank, texts and attribute values are restored by unescape from their escaped form, comments contain no '-->' and start with neither '>' nor '->', and CDATA sections contain no ']]>'. Whether it survives does not depend on the indent. A document with a DTD never survives.", "quantifier": "all documents built through the API with ordinary names; all indent strings", "why_tests_cant": "The 'only if' half says that no document outside the description survives, over unbounded trees and contents; tests can only show single failures.", "anchors": ["src/dom.rs:Document::to_string_with_indent", "src/lib.rs:parse_str", "src/dom.rs:Element::to_string_with_indent", "src/lib.rs:escape", "src/lib.rs:unescape"]}
{"id": "C69", "title": "The document any accepted text stands for", "statement": "Every accepted text splits, in one way only, into a prolog and one or more complete root elements, and the document read is determined by them in every respect: the last XML declaration, the DTDs in order, and as root the LAST root element, with its own name, attributes, namespace and prefixes, holding the contents of all the roots in order. Contents of earlier roots are adopted by the last one (an unprefixed element without namespace takes its default namespace). Where texts of neighbouring roots meet they become one text with the later one first, and a text that decodes to white space is dropped unless it meets another. A text stands for one document only up to the order of attributes, so any text that can be read to its end yields that document; with a single root this is the document of C67.", "quantifier": "all accepted strings, with any number of root elements; all documents", "why_tests_cant": "A complete functional specification of the parser on every input it accepts, including arbitrarily many roots of arbitrary depth; tests compare single documents.", "anchors": ["src/lib.rs:parse_str", "src/parsing.rs:ParseTree", "src/dom.rs:Element::append", "src/dom.rs:Element::set_namespace_context"]}
{"id": "C70", "title": "XML 1.0 documents are read as XML 1.0 says", "statement": "Every well-formed and namespace-well-formed XML 1.0 document without references to entities other than the predefined ones, with or without a DTD, in the subset described by easy_xml (no processing instructions, no comments after the root, no white space around '=', local names and attribute names beginning with an ASCII letter or '_' and without U+1680, comments in the content not beginning with '>' or '->', no text made only of Unicode white space that XML does not count as white space, only short or ASCII comments before the root, only predefined entities as references and those far enough from each other and from the end when the last character is not ASCII, no carriage returns, no tabs or line ends in attribute values, namespaces not undeclared and default namespaces not hidden by a prefixed parent, no prefix 'xml', no quotes or angle brackets in comments or processing instructions inside the DTD, no attributes left to be added from the DTD or whose declared type asks for spaces to be removed from their value), is accepted, and the tree returned has exactly the declaration, DTD, names, prefixes, namespaces, attributes, texts, comments and CDATA sections that XML 1.0 and Namespaces in XML 1.0 give to the document. That tree is unique up to document equality. Each condition of the subset is needed: a well-formed document violating it is rejected, read as something else, or makes the parser panic; and texts that are not XML (control characters) are accepted. The text alone determines the parse tree: two parse trees of well-formed documents with the same text are equal.", "quantifier": "all parse trees of XML 1.0 documents without DTD or with a DTD (external identifiers, declarations of element types, attribute lists, entities and notations, comments and processing instructions; no parameter entity references), of any size and depth, satisfying the constraints of the Recommendation and the stated subset", "why_tests_cant": "It compares the parser with the grammar of the XML Recommendation on all documents of an infinite class; conformance suites sample it.", "anchors": ["src/lib.rs:parse_str", "src/parsing.rs", "src/lib.rs:unescape", "src/dom.rs:Element::set_namespace_context"]}
{"id": "C71", "title": "What is written is XML saying the document", "statement": "Writing a document gives a text that is well-formed XML 1.0, is namespace-well-formed, and says by XML's own rules exactly the document written, if and only if the document is one that XML can hold: names are QNames, attributes have declared prefixes and no two the same expanded name, attribute values hold no tab or line end, texts, comments and CDATA sections hold only XML characters and no carriage return, comments hold no '--' and do not end in '-', texts are not blank and not next to each other, each element's namespace is the one declared for its prefix, the declaration is an XML declaration, and there is no DTD. Whether this is so does not depend on the indent. Whatever any other XML reader makes of the text is then equal to the document written. Each condition is needed: documents built by accepted API calls that violate it are written as something that is not XML or that says something else.", "quantifier": "all documents whose tree is in the shape the API maintains, of any size and depth; all indents; all parse trees of XML documents", "why_tests_cant": "It compares the writer with the grammar and meaning of the XML Recommendation on all documents, in both directions; a test parses single outputs, and with the crate's own parser.", "anchors": ["src/dom.rs:Document::to_string_with_indent", "src/dom.rs:Element::to_string_with_indent", "src/lib.rs:text_escape", "src/lib.rs:attribute_escape", "src/dom.rs:Comment::new"]}
{"id": "C72", "title": "What predicates are asked, and what a panicking predicate leaves behind", "statement": "A search asks its predicate about nothing until an item is requested, then about one descendant after the other in the order of all_children, each once, up to the item it gives; after a panic of the predicate the iterator can be used again and goes on behind that node. Searches for one kind of node ask about nodes of that kind only. remove_by asks about each child once, last child first, and removes nothing before all have been asked about; if the predicate panics, the element is unchanged. remove_all asks about every descendant that has no removed ancestor exactly once: the children of an element, last first, before anything below them, then what is below the first remaining child element, and so on; it removes exactly the nodes for which the answer was yes, and returns their number; if the predicate panics, everything decided before is removed except the siblings of the node in question. remove_elements and remove_all_elements do the same and ask about elements only. If the answer depends on the argument only, the results are those of C16 to C18, whatever else the predicate does.", "quantifier": "all elements of any size and depth; all predicates with any internal state and effects, panicking or not; all initial states; any number of requested items", "why_tests_cant": "It quantifies over all stateful closures and all points at which they may panic; the order of calls is invisible to tests with pure predicates.", "anchors": ["src/dom.rs:Element::search", "src/dom.rs:Element::search_elements", "src/dom.rs:Element::search_text", "src/dom.rs:Element::search_comments", "src/dom.rs:Element::remove_by", "src/dom.rs:Element::remove_all", "src/dom.rs:Element::remove_elements", "src/dom.rs:Element::remove_all_elements"]}
{"id": "C73", "title": "Nothing depends on the iteration order of hash maps", "statement": "Rust leaves the order in which a HashMap is iterated unspecified and it differs between runs. Whatever sequence of API calls builds, parses, changes and takes apart elements, two runs of it that iterate their maps in any different orders end alike: both succeed, both panic or both return the same error, and the resulting trees agree in everything that can be asked of them (names, namespaces, attributes by key, text, children, searches, numbers of removed nodes, ==, hash, serialization). The one exception: if several attribute names given to one element are invalid, the error may name any of them, and which one it names is left to the order; so two runs on the same text can show different messages.", "quantifier": "all programs over the API (constructors, parse_str, adding, removing, updating, attributes, clone); all pairs of iteration orders, chosen independently for every loop over a map; all texts; all predicates and updates that do not themselves look at the order of a map", "why_tests_cant": "A test process sees a few random orders; the claim is about all orders of every map in every call.", "anchors": ["src/dom.rs:Element::new", "src/dom.rs:Element::set_namespace_context", "src/dom.rs:Element::append", "src/dom.rs:Element::append_all", "src/dom.rs:Element::insert", "src/dom.rs:Element::namespace_prefixes", "src/dom.rs:Element::to_string_with_prefix_and_indent", "src/dom.rs:impl PartialEq for Element", "src/lib.rs:parse_str", "src/parsing.rs:ParseTree::to_dom"]}
{"id": "C74", "title": "Machine integers do not overflow", "statement": "No offset, index, depth, line or column number or count computed by the crate overflows or underflows, so results are the same on 16, 32 and 64 bit machines and in builds with and without overflow checks (and overflow checks never cause a panic): for parsing, for every text that fits in memory and has less than 2^31 (without overflow checks: 2^32) times the character '<', which on a 32 bit machine is every text; for unescape, append, append_all, insert, set_text, remove_all and remove_all_elements always, as long as the nodes fit in memory. Beyond that number the i32 depth counter used for <!...> tags overflows: with overflow checks parsing \"<!\" followed by 2^31 times '<' panics; without, 2^32 times '<' count as none, so that \"<!<<<...<><a/>\" is accepted, although nothing closes the first tag.", "quantifier": "all machines with a usize of 16 bits or more, with and without overflow checks; all texts that can be allocated (less than half the range of usize in bytes); all elements, nodes, indices and predicates", "why_tests_cant": "The bounds lie at 2^31 characters and more and depend on platform and build profile; a test would need gigabytes of input and would cover one text, one platform and one profile.", "anchors": ["src/lib.rs:parse_str", "src/lib.rs:next_tag", "src/lib.rs:nested_quote_aware_find_close", "src/lib.rs:quote_aware_find", "src/lib.rs:line_and_column", "src/lib.rs:abbreviate", "src/lib.rs:unescape", "src/lib.rs:real_text", "src/dom.rs:Element::cleanup_text_nodes", "src/dom.rs:Element::append_all", "src/dom.rs:Element::insert", "src/dom.rs:Element::remove_all", "src/dom.rs:Element::remove_all_elements", "src/parsing.rs:ParseTree::to_dom"]}
{"id": "C75", "title": "The stack needed is the nesting depth, which the input chooses", "statement": "Writing (to_string, Display), text(), clone, searching, remove_all and dropping an element need one nested activation for each level of elements in it: with room for k of them the call gives its usual result if no element of the tree is nested deeper than k, and overflows the stack otherwise. clear_children, set_text, remove_by, remove_elements, remove_element and remove_all_elements need what the child elements they drop (or descend into) need. == needs at most the depth of the flatter side, overflows when comparing equal elements nested deeper than k, and is right whenever it answers. parse_str does not recurse: it accepts texts of any depth. A document nested deeper than k needs a text of at least 7k+4 characters, so one activation for each 7 characters of text is enough; and the bound is sharp: for every k there is a text of 7k+4 characters that is parsed, and whose document overflows a stack with room for k activations when it is written, cloned, compared with its equal, searched or just dropped.", "quantifier": "all elements and documents of any depth; all stack sizes k; all texts, indents and predicates", "why_tests_cant": "A test overflows (aborts) at one platform-dependent depth; the claim gives the exact need for every tree and every stack and a text for every stack size.", "anchors": ["src/dom.rs:Element::to_string_with_prefix_and_indent", "src/dom.rs:Element::text", "src/dom.rs:impl Clone for Element", "src/dom.rs:clone_node", "src/dom.rs:impl PartialEq for Element", "src/dom.rs:node_eq", "src/dom.rs:Element::children_recursive", "src/dom.rs:Element::remove_all", "src/dom.rs:Element::clear_children", "src/dom.rs:Element::remove_element", "src/dom.rs:Element (drop)", "src/lib.rs:parse_str", "src/parsing.rs:ParseTree::to_dom"]}
{"id": "C76", "title": "Saving and loading again and again: three fates", "statement": "Call w the number of bytes of the last character of a text. Escaping a text for an element (or an attribute value) and decoding it again with unescape looks at the special characters one after the other and passes over w-1 bytes behind each: a special character there stays escaped in the result, and if the w-1 bytes end inside a character the call panics; everything else is restored. So a text comes back unchanged exactly if w-1 bytes of ordinary characters follow each special character in it; and repeating the cycle has exactly three outcomes: the text never changes, the first cycle panics, or every cycle makes it at least three bytes longer, for ever. For whole documents (XML names, no DTDs, one root, no blank or adjacent texts, comments and CDATA without their end marks; texts and values otherwise arbitrary; all parsed documents with XML names, one root and no DTDs are of this kind): parse_str(to_string_with_indent) panics exactly if some text or attribute value does, for every indent; otherwise any number of cycles, with any sequence of indents, succeeds and gives the same tree whose texts and values went through that many cycles. So a document never changes, or panics in the first cycle, or grows for ever.", "quantifier": "all texts and values, all documents of that kind, all numbers of cycles and all sequences of indents", "why_tests_cant": "Each cycle may behave; the claim is about all numbers of cycles, all texts and positions of multi-byte characters in them, and whole trees.", "anchors": ["src/lib.rs:text_escape", "src/lib.rs:attribute_escape", "src/lib.rs:unescape", "src/lib.rs:parse_str", "src/dom.rs:Document::to_string_with_indent", "src/dom.rs:Text", "src/parsing.rs:ParseTree::to_dom"]}
{"id": "C77", "title": "Nodes of types outside the crate", "statement": "The children of an element are Box<dyn Node>, so types outside the crate that implement the trait Node may be among them. Consider trees in which every foreign node behaves like one of the four kinds of nodes (a wrapper that hands out an element; or a node that says it is a text, comment or CDATA section, hands one out, and writes itself like it), or says that it is none of the four. Put for each foreign node the node it behaves like, and for those that are none of the four a CDATA section. Then adding (append, append_all, insert, set_text, the constructors), looking up (child_elements, elements_by_*, first_element_by_name, search*, all_children, text), changing through child_elements_mut, and removing (remove, remove_by, remove_all, remove_elements*, remove_all_elements) give the same result, error or panic as on the tree put in its place. Cloning panics exactly if there is a node in the tree that is none of the four; otherwise it gives a tree with nodes of the crate only. remove_element gives the clone of the removed child, so it panics if there is such a node in it, after the child has been removed. == gives the result on the trees put in place or panics, the latter only if there is such a node; a tree with such a node is never equal to itself: the comparison panics. Serialization is that of the tree put in place, with what the nodes that are none of the four write with the given indent (no indent for an only child) where the CDATA sections are. A node that says it is an element but does not hand one out cannot be appended (panic), and where it is in a tree child_elements, searches, cloning and writing panic; one that says it is a text but hands out none cannot be appended either; with one that says it is a comment or CDATA section but hands out none, cloning panics. The default of node_type panics exactly for nodes that are none of the four, and otherwise gives the first of CDATA section, comment, element, text that the node says it is; for the crate's own nodes it is their kind.", "quantifier": "all implementations of the trait with methods that are functions of the value, all trees, all arguments and predicates that respect the replacement", "why_tests_cant": "The trait is open: the types and their behaviour are chosen by users of the crate, and the claim is about all of them in all trees.", "anchors": ["src/dom.rs:Node", "src/dom.rs:clone_node", "src/dom.rs:node_eq", "src/dom.rs:Element", "src/dom.rs:Element::append", "src/dom.rs:Element::cleanup_text_nodes", "src/dom.rs:Element::remove_element", "src/dom.rs:Element::to_string_with_prefix_and_indent"]}
{"id": "C78", "title": "The patterns as they are written in the source", "statement": "The five regular expressions of the crate, as their text stands in the source (for the tag pattern: with the two character classes filled in by format!), are accepted by the pattern syntax, so that Regex::new(..).unwrap() does not panic, and say the following, with [^] and [$] at the ends of the text (not of lines). An attribute name is accepted (set_attr, the constructors) exactly if the pattern for attribute names is found in it, and an element name exactly if the one for element names is: both accept exactly the texts that start with an ASCII letter or underscore and have none of the 25 Unicode White_Space characters behind it. A text is white space, and is dropped when texts are joined, exactly if it is one or more of those 25 characters; the parser skips a text exactly if it is none or more of them. A tag is accepted exactly if somewhere in it there is a part of the form '<', perhaps '/', an XML name, perhaps ':' and a name, attributes with quoted values, white space, perhaps '/', '>'.", "quantifier": "all texts and names; the five patterns as written in the source", "why_tests_cant": "A test tries a pattern on some texts; the claim gives the texts accepted for the exact characters of the pattern, and a wrong range bound or a missing anchor shows only on texts nobody tries.", "anchors": ["src/dom.rs:check_attr_name", "src/dom.rs:check_elem_name", "src/dom.rs:Text::is_whitespace", "src/lib.rs:real_text", "src/lib.rs:check_element_tag"]}
{"id": "C79", "title": "The library operations the crate relies on behave as documented", "statement": "The string, table, vector and number operations of the standard library that the crate calls behave in the model as Rust documents them: len counts UTF-8 bytes; slicing gives the part between two character boundaries and panics otherwise; find gives the byte offset of the first occurrence and None exactly if there is none; starts_with, ends_with, contains, strip_prefix, strip_suffix, split_once are what they say; replace exchanges, from left to right, each next occurrence and nothing else; trim takes all White_Space characters off both ends and no others; a table has after insert(k, v) the value v for k and the old values for all other keys, after remove(k) nothing for k and the old values for all others; reading, setting, inserting and removing at an index of a vector act at exactly that index and panic exactly outside of it; u32::from_str_radix(s, 16) accepts exactly the hexadecimal numbers below 2^32, with an optional plus sign; char::from_u32 accepts exactly the Unicode scalar values; comparing strings is the lexicographic order.", "quantifier": "all strings, patterns, offsets, tables, keys, vectors and indices", "why_tests_cant": "Every other claim about the crate rests on these operations; the claim is for all arguments, including overlapping occurrences, offsets inside characters and indices at the end.", "anchors": ["src/lib.rs:text_escape", "src/lib.rs:unescape", "src/lib.rs:next_tag", "src/lib.rs:strip_tag", "src/lib.rs:parse_new_element", "src/dom.rs:Element::set_attr", "src/dom.rs:Element::insert"]}
{"id": "C80", "title": "Which calls can panic", "statement": "The only calls of the API that can panic are: parse_str (and parse_stream, parse_filepath on the text they read) on the texts of C64; unescape on the texts of C06; Comment and CData made with From from a text containing the terminator; Declaration::from_str on '<?>' with white space around it. All other calls return a value or an error whatever tree they are made on and whatever they are given. Hence a program made of any calls of the API panics only if one of the texts it parses is such a text, or if a change the program itself makes through a reference panics; a program that parses only ASCII texts without '&#' never panics, and neither does one that does not parse.", "quantifier": "all programs made of calls of the API, all trees, arguments, file systems and streams, all orders of the hash maps", "why_tests_cant": "The calls use indices, unwrap and expect in many places; that none of them can fail on any reachable or unreachable tree is a statement about all of them.", "anchors": ["src/lib.rs:parse_str", "src/lib.rs:unescape", "src/dom.rs:Element::insert", "src/dom.rs:Element::remove_element", "src/dom.rs:Element::remove_by", "src/dom.rs:Element::append_all", "src/dom.rs:Element::cleanup_text_nodes", "src/dom.rs:Comment", "src/dom.rs:CData", "src/dom.rs:Declaration::from_str"]}
{"id": "C81", "title": "A change at one place of a tree changes the text at one place", "statement": "Replacing a node, at any depth, by another of the same sort (element, text, or comment/CDATA) leaves the written text unchanged before and after the part that stands for the node; that part is the node's own text: for a leaf its escaped or delimited text, for an element in mixed content its text without added white space, elsewhere its lines indented by its depth. Adding or removing a node other than a text where children are written on lines of their own adds or removes exactly its line; adding or removing any node in mixed content adds or removes exactly its part. Changing the attributes of an element changes exactly the attributes in its start tag. In the text of a document the root stands at one place. (Putting a text in place of a comment, or a second child beside a single comment, does change the layout around: witnesses.)", "quantifier": "all trees, paths, replaced and added nodes, attribute tables, valid indents", "why_tests_cant": "It is a statement about all contexts and all replacements at once: the same 'before' and 'after' for every replacement.", "anchors": ["src/dom.rs:Element::to_string_with_prefix_and_indent", "src/dom.rs:Element::to_string_with_indent", "src/dom.rs:Document::to_string_with_indent"]}
{"id": "C82", "title": "Putting texts together is putting trees together", "statement": "Cut an accepted text after any tag of its root element except the last, and put any accepted text there that consists of one element with nothing around it. The result is accepted; its declaration and DTDs are those of the outer text, and its tree is the outer tree with the inner root element added at one place, which depends only on the cut. The added element has the inner element's names, attributes and content, with the namespaces that are in force at the new place. If no namespace is declared on the elements around that place, the added element is the one read from the inner text alone, and calling insert (or append, at the end) on the outer tree gives the same tree. (Where a namespace is declared, append does not: it passes the default namespace to the appended element only, not to the elements inside it. After the last tag, and for texts with a prolog, the result is rejected: witnesses.)", "quantifier": "all accepted outer texts with one root, all cuts after tags, all accepted inner texts", "why_tests_cant": "It relates the parser to itself on infinitely many pairs of texts and cuts, and to the tree-building API.", "anchors": ["src/parsing.rs:parse_str", "src/dom.rs:Element::append", "src/dom.rs:Element::insert", "src/dom.rs:Element::set_namespace_context"]}
{"id": "C83", "title": "Sizes: no amplification beyond namespaces and indentation", "statement": "The document read from a text is never larger than the text: its declaration, DTDs, tags, attribute names and values, texts, comments and CDATA sections, each with the punctuation needed to write them, take at most as many bytes as the text has, and there are at most a quarter as many elements as bytes. Every namespace and every prefix kept with an element is an attribute value written in the text, so for one element they are not larger than the text; for all elements together they are at most quadratic in it and can be quadratic (witness: one long default namespace and many children). Writing a document takes at most six bytes for each byte of its size, plus the indentation, one unit for each level of nesting on each line; so a text that is read and written again has at most quadratic size, which deep nesting reaches (witness).", "quantifier": "all accepted texts with any number of roots; all documents and indents for writing", "why_tests_cant": "Bounds on the size of what every accepted text yields, and families of texts of unbounded size for the lower bounds.", "anchors": ["src/parsing.rs:parse_str", "src/dom.rs:Element::to_string_with_indent", "src/dom.rs:Document::to_string_with_indent", "src/dom.rs:Element::namespace", "src/lib.rs:escape"]}
{"id": "C84", "title": "Time of reading and writing", "statement": "Count one step for each round of a loop of the crate and for each byte or item an operation of the standard library handles. Then every text is read or refused within a constant times the square of its length, and so is a text unescaped. This is reached: a text of k entity references takes at least k*k steps (each reference copies what follows it), and reading any document takes at least half the sum, over its elements, of the squares of the numbers of their children (each child added looks at all before it); so there is no linear bound. Appending one node is linear in the children there are, with their texts, and in the names and namespaces kept, and looks at each child at least once. Writing a document takes time bounded by size and depth, and for a document that was read from a text at most a constant times the cube of the length of the text (for a fixed indent); deep nesting takes cubic time, so there is no quadratic bound.", "quantifier": "all texts, accepted or not; all elements and nodes; all documents and indents; all constants for the lower bounds", "why_tests_cant": "Bounds for inputs of any length, and lower bounds that exclude every constant; a test measures a few lengths on one machine.", "anchors": ["src/lib.rs:parse_str", "src/lib.rs:unescape", "src/parsing.rs:to_dom", "src/dom.rs:cleanup_text_nodes", "src/dom.rs:Element::append", "src/dom.rs:Element::to_string_with_indent", "src/dom.rs:Document::to_string_with_indent"]}
{"id": "C85", "title": "Documents made by ordinary programs survive being saved and loaded", "statement": "Take a program that makes and changes elements by any sequence of API calls (constructors, parsing, append, insert, set_text, set_attr, removal, the mutable views, clones, moving removed nodes elsewhere), giving only names, keys, values, texts, comments and CDATA sections from given classes, and giving each prefix, and elements without prefix, the namespace of one fixed table. Nothing else ever turns up in its trees, as long as joining two texts of the class gives a text of the class. If the classes hold what the crate can write and read (for example plain names, non-empty ASCII texts, ASCII values, comments that do not start with '>' or '->'), the table has either a default namespace or prefixes but not both, and the root declares the table, then a document without DTD comes back equal from being written with any indent and read, exactly if its texts are not blank and not next to each other; and this is always so if the program removes nodes only from elements without mixed content, puts no text in place of another node and no blank text in place of a text. What was read is again such a document, so changing, saving and loading can go on for ever. If the classes hold what XML can hold, then under the same conditions (default namespace and prefixes together allowed) what is written is namespace-well-formed XML that says the document. Each condition is needed.", "quantifier": "all classes of arguments and tables of namespaces; all programs, of any length, that use them; all documents they make; all indents", "why_tests_cant": "Ranges over all programs of any length and all their arguments; the exceptions come from particular sequences of calls (a comment removed between texts, an element without prefix put inside one with a prefix).", "anchors": ["src/dom.rs:Element::new", "src/dom.rs:Element::append", "src/dom.rs:Element::insert", "src/dom.rs:Element::set_text", "src/dom.rs:Element::remove", "src/dom.rs:Element::remove_all", "src/dom.rs:Element::children_mut", "src/dom.rs:cleanup_text_nodes", "src/dom.rs:set_namespace_context", "src/dom.rs:Document::to_string_with_indent", "src/lib.rs:parse_str"]}
{"id": "C86", "title": "Which elements can be told apart by calls", "statement": "Take two elements and make the same calls on both, in any number and order: append, append_all, insert, set_text, clear_children, the attribute calls, all removals, the mutable views, looking up a child by name, taking a child element out, cloning, and inserting the element into a third one. No such calls bring out a difference (results that are not ==, or different errors) exactly if the two elements are the same trees up to the order of attributes, where the table of prefixes that each element keeps for its children counts too. If in both trees each prefix comes with a namespace, being equal by == is enough, as long as the calls bring in only trees of that kind; all elements made by programs with one table of namespaces (C85) are of that kind. Without this, == is not enough: two elements that are ==, have the same text and the same hash become different when the same new element is appended to both.", "quantifier": "all pairs of elements, of any size and depth; all sequences of calls with all arguments, predicates and updates that themselves do not see more than the relation", "why_tests_cant": "Ranges over all pairs of trees and all sequences of calls; the differences lie in a table that no single getter shows and come out only after a later call with a particular prefix.", "anchors": ["src/dom.rs:impl PartialEq for Element", "src/dom.rs:Element::append", "src/dom.rs:Element::append_all", "src/dom.rs:Element::insert", "src/dom.rs:set_namespace_context", "src/dom.rs:Element::remove_element", "src/dom.rs:Element::remove_all", "src/dom.rs:Element::children_mut", "src/dom.rs:cleanup_text_nodes"]}
{"id": "C87", "title": "Undoing changes, and making them in another order", "statement": "Inserting a node and removing it again gives back the element as it was exactly if the index is in range, the children with the new node are in normal text form (no blank text, no two texts side by side) and, unless the node was put last, the last child has nothing left to take over from its parent. Removing a child and inserting it again at the same index gives back the element exactly if the children are in normal form and the last child has nothing left to take over. Both hold at every place of a document that was read from a text with one root. Setting an attribute is undone by removing it or by setting the old value, removing it by setting it again. Attribute calls and child calls on the same element, calls on different attributes, any changes at two places neither of which is above the other, and attribute changes of an element and changes below it can be made in either order with the same result. Two removals by index commute with shifted indices, two removals by predicate always, and are one removal; removals at all depths commute, are one removal and are idempotent if the predicates do not look into the children. Appending two lists one after the other is appending their concatenation unless there are blank texts in front.", "quantifier": "all elements, of any size and depth; all indices, nodes, attribute names and values, predicates, places in the tree; all one-root texts for the part about reading", "why_tests_cant": "Equations between sequences of calls over all trees, with exact conditions; the exceptions (a child which did not inherit because it was not the last, predicates that look at children, blank texts) need particular histories that tests do not happen to build.", "anchors": ["src/dom.rs:Element::insert", "src/dom.rs:Element::remove", "src/dom.rs:Element::append", "src/dom.rs:Element::append_all", "src/dom.rs:Element::set_attr", "src/dom.rs:Element::remove_attr", "src/dom.rs:Element::remove_by", "src/dom.rs:Element::remove_all", "src/dom.rs:cleanup_text_nodes", "src/dom.rs:set_namespace_context", "src/lib.rs:parse_str"]}
{"id": "C88", "title": "Exactly which XML documents are read as XML says", "statement": "A well-formed, namespace-well-formed XML 1.0 document that uses only the predefined entities, and whose comments before the root do not begin with '>' or '->', is read by parse_str as the tree XML 1.0 and Namespaces in XML give it if and only if all of the following hold; every other one is rejected, makes the parser panic, or is read as a different tree. Every tag has the form the crate looks for; no processing instructions and no comments after the root; attribute names and local names of elements begin with an ASCII letter or underscore, and no name contains U+1680; numeric references are decimal ones for the tabulator only, and after each reference there are as many bytes of plain characters as the last character of the text or value has, less one; values have no literal tabulators or line ends; texts are white space only (with any line ends), or have no carriage return and something that Rust does not take for white space; comments and CDATA sections have no carriage return, comments do not begin with '>' or '->'; prefixes of elements are declared (xml too); a default namespace is not taken back on an element without prefix, and an element without prefix below one with a prefix has no default namespace unless it declares one; the document type declaration supplies and changes no attributes and its quotes and angles balance the way the crate counts; the first comment before the root can be shortened without cutting a character.", "quantifier": "all well-formed XML 1.0 documents with namespaces (of the productions of SpecXml.v: any declaration, prolog, DTD declarations, elements, attributes, references, comments, CDATA sections, processing instructions), of any size and depth", "why_tests_cant": "An exact characterisation of the inputs that are understood correctly: tests can show documents on either side of the line but not that the line is complete, and several of the conditions (white space around '=' is accepted except for the first attribute, the byte count after references, the first long comment) are not visible in the code or its documentation.", "anchors": ["src/lib.rs:parse_str", "src/parsing.rs", "src/lib.rs:unescape", "src/dom.rs:Element::append"]}
{"id": "C89", "title": "Time of changing a tree, searching it and collecting its text", "statement": "Appending nodes at once takes time linear in the row of children with their texts and in what each new element inherits, plus once the row for each place where two texts meet and each text of white space; so it is linear when the row has neither, and quadratic for many texts that become one. Inserting at any index is linear in the row. Appending nodes one by one gives the same tree as appending them at once but takes quadratic time. Removing children by a predicate takes exactly one call of it for each child and, for each child removed, the number of children behind it that stay: at most a quarter of the square of the number of children, which is reached when the first half is removed; removing in the whole tree calls the predicate at most once for each node and takes no longer than the number of nodes and the squares of the numbers of children. A search to its end takes time bounded by nodes times depth, and at least the nodes and half the square of the depth, so quadratic time for documents that were read, and that is reached by nesting. Collecting the text copies it once for each level.", "quantifier": "all elements, all lists of nodes, indices and predicates of any running time, and all texts that are read; trees of any size and depth", "why_tests_cant": "Timings show a trend on the sizes tried and depend on the machine; bounds for all trees, exact counts, and families on which the bounds are reached need a proof.", "anchors": ["src/dom.rs:append_all", "src/dom.rs:insert", "src/dom.rs:remove_by", "src/dom.rs:remove_all", "src/dom.rs:children_recursive", "src/dom.rs:search", "src/dom.rs:text"]}
{"id": "C90", "title": "References to a document's own entities stay as text", "statement": "A document that refers, in attribute values and texts, to entities other than the five predefined ones, and is otherwise one that is read as XML says (C88), is read without an error, and the references are kept as text: the tree is the one read when every such reference '&name;' is written '&amp;name;'. It does not matter whether the entity is declared in the document type declaration, as what, or whether it refers to itself. So if what is declared brings in no ampersands, a document with at least one such reference is never read as XML says, that is, with the references replaced by what is declared, as often as necessary; an entity that stands for the text of its own reference shows that this proviso is needed. Without such references nothing is replaced and C88 applies unchanged.", "quantifier": "all well-formed documents with document type declarations, any number of entities with any replacement texts (characters, elements, references to further entities), and any references in their attribute values and texts, for which the document with the references as text is well-formed and fair in the sense of C88", "why_tests_cant": "The entities, what they stand for and the places of the references are unbounded, and that no document with a reference comes out right is a statement about all of them; examples show single documents.", "anchors": ["src/lib.rs:unescape", "src/lib.rs:parse_str", "src/lib.rs:parse_new_element"]}
{"id": "C91", "title": "Time of comparing, copying and hashing elements", "statement": "Comparing two elements takes at most time linear in the first one (its tree and the namespaces kept with its elements), however large the second one is; two equal elements are looked at as a whole; names of different lengths are found in one step, and with different numbers of children no child is looked at. Copying an element takes time linear in the tree, the namespaces and the tables of prefixes kept with it, from both sides, and taking a child element out of an element copies it. For documents that were read both are at most quadratic in the length of the text, and not always linear. Hashing an element looks only at its name and its namespace: it can be cheaper than comparing by any factor, and elements that differ elsewhere have the same hash.", "quantifier": "all elements of any size and depth, all indices, and all texts that are read", "why_tests_cant": "Timings show a trend on the sizes tried and depend on the machine; bounds for all trees from both sides, and families on which they are reached, need a proof.", "anchors": ["src/dom.rs:PartialEq for Element", "src/dom.rs:node_eq", "src/dom.rs:Clone for Element", "src/dom.rs:clone_node", "src/dom.rs:remove_element", "src/dom.rs:Hash for Element"]}
{"id": "C92", "title": "Exactly which accepted texts are XML documents", "statement": "A text that parse_str accepts, whose prolog is one of XML (or which has none), and in which U+1680 does not occur, is a well-formed XML 1.0 document if and only if three things hold, each of which can be seen without looking at how tags nest: the tags are those of one root element only; every tag is a start, empty-element or end tag, comment or CDATA section of XML, and every text between tags is character data and references of XML; before the root and after it there is only white space. So the nesting of tags and the names of end tags are all that the parser checks of XML for certain; it also accepts text after the root, a second root element, ']]>' in text, '&' that begins no reference, '--' in comments, '/>' at the end of closing tags and attributes given twice, none of which is XML.", "quantifier": "all accepted texts of any length and depth, all prologs of the productions of XML 1.0 (declaration, comments, DTD declarations)", "why_tests_cant": "That an accepted text with these local properties is derivable from the grammar of XML, and that no other one is, is a statement about all trees of markup; tests can only show single texts that are accepted or rejected.", "anchors": ["src/lib.rs:parse_str", "src/lib.rs:parse_new_element", "src/lib.rs:next_tag", "src/lib.rs:check_element_tag", "src/parsing.rs:ParseTree"]}
{"id": "C93", "title": "White space between tags: what is kept and what is lost", "statement": "The text() of every element of an accepted document with one root is made of the texts between the element's own tags, references replaced, in order: each of them that is more than white space appears whole, character for character, and each that is empty or white space only appears not at all. So no white space of the root's text is lost if and only if no two of its tags are separated by white space alone. Replacing white space that stands alone between two tags by other white space, or by none, or putting white space where there was no text, never makes an accepted document unacceptable and gives an equal document. The documented exception, that white space is all preserved if an element contains text, does not hold.", "quantifier": "all accepted texts with one root element, of any length and depth; all elements of the tree; all ways of changing the white space between tags", "why_tests_cant": "White space can be changed at any number of places at once, to any of the white space characters; tests show single layouts, and the documented example happens to hide that a space between two elements beside text is lost.", "anchors": ["src/lib.rs:parse_str", "src/lib.rs:real_text", "src/dom.rs:cleanup_text_nodes", "src/dom.rs:text"]}
{"id": "C94", "title": "What was cut off is never taken for a document", "statement": "A beginning of an accepted text with one root element is accepted if and only if it reaches the end of the root element, and then gives the same document; any shorter beginning is rejected with one of the errors for a text that ends early. A document that survives being written, saved by write_to_filepath or to a stream, can lose the line end at its end but nothing else: a file or stream cut off after any other byte, even within a character, gives an error. So after write_to_filepath, whether it succeeds or fails half way, the file holds what it held before (only if the call failed), or is read as the document written, or cannot be read; it is never read as a shorter document. No written document is the beginning of another one, whatever the indents, so that from documents written one after the other it follows how many there are and which; but parse_str can read such a text as one document, in which the last root element has taken over the children of the first. Saving is not atomic: a write that fails half way loses what the file held before.", "quantifier": "all accepted texts with one root and all places to cut them; all documents that can be written, all indents, all bytes at which the file or stream can end, all ways the disk can fail", "why_tests_cant": "There are as many places to cut as there are bytes, in every document; that no beginning of markup is itself complete needs an argument about nesting for all trees.", "anchors": ["src/lib.rs:parse_str", "src/lib.rs:parse_filepath", "src/lib.rs:parse_stream", "src/dom.rs:write_to_filepath", "src/dom.rs:to_string_with_indent"]}
{"id": "C95", "title": "Texts side by side come back as one, empty and blank texts not at all", "statement": "A document in which texts are next to each other, empty or blank, as happens when comments or elements between texts are removed or empty texts are put in, is read back from what to_string, to_string_with_indent and write_to_filepath write as the same document with texts next to each other joined into one and with texts that are then empty or white space left out, at every depth and for every indent; provided that this document can itself be written. So it comes back equal exactly if there was nothing to join or leave out. For programs that use ordinary arguments (C85) or empty texts this holds whatever they remove, insert and assign. All other nodes stay, in order, and of the texts only white space is lost. Two texts that would each come back need not come back when joined.", "quantifier": "all documents of any depth whose joined form can be written, all indents; all programs with ordinary arguments and any sequence of calls", "why_tests_cant": "Trees with texts side by side arise from any sequence of removals at any depth; that the result is the joined tree for all of them, and no other node is affected, needs induction over the tree and its layout.", "anchors": ["src/dom.rs:to_string_with_indent", "src/dom.rs:remove_all", "src/dom.rs:remove", "src/dom.rs:children_mut", "src/lib.rs:parse_str"]}
{"id": "C96", "title": "The text on stderr", "statement": "Writing with an indent that is one tab or only spaces prints nothing on stderr. With any other indent it prints exactly one line without control characters, however many line ends, quotes or escape sequences the indent holds, and this line tells exactly which indent was given, also when other output follows. Reading prints its warnings one after the other, and the whole output tells which warnings they are, although they quote the text with its line ends. No control character is printed that the text does not contain, and a text without control characters gives one line for each warning. But line by line the warnings cannot be told: for every line without ]]> there is a text that is accepted without error and prints that line.", "quantifier": "all indents, documents and elements; all texts; all lines without ]]>; all Unicode tables that agree with ASCII", "why_tests_cant": "That no indent is printed ambiguously or breaks the line, and that no two lists of warnings print the same bytes although they quote arbitrary input, ranges over all strings and needs the prefix-code argument.", "anchors": ["src/dom.rs:to_string_with_indent", "src/lib.rs:parse_str", "src/lib.rs:abbreviate"]}
{"id": "C97", "title": "The debug form of errors", "statement": "The debug form of every error of the crate except an I/O error, which unwrap and expect print, is one line without control characters, whatever text the error quotes, and it tells exactly which error it is with its message, index and bounds, also when other text follows. The display form has neither property: for every line there is a name that is refused with an error whose display form contains that line, and two different errors can be displayed so that one is the beginning of the other.", "quantifier": "all errors with any message, index and bounds; all lines; all Unicode tables that agree with ASCII", "why_tests_cant": "Messages quote arbitrary input; that none of them breaks the line or is taken for another error ranges over all strings and integers.", "anchors": ["src/errors.rs:KissXmlError", "src/errors.rs:IndexOutOfBounds", "src/dom.rs:new_from_name"]}
{"id": "C98", "title": "A stderr that cannot be written", "statement": "If stderr cannot be written any more after k messages (a pipe whose reader is gone, a full disk), parse_str, parse_stream and parse_filepath give the same result as otherwise if the text deserves at most k warnings, and panic if it deserves more; for every k there is a text of ASCII characters that is accepted otherwise and makes reading panic. Writing panics only if the indent is neither one tab nor only spaces and no message can be written; with any other indent, or if one message can be written, it gives the same text. Saving to a path panics in that case before the file is opened: every file and directory stays as it was, and at most directories above the file are created. Writing to a stream then panics before anything is written.", "quantifier": "all texts, files, streams, documents, elements, indents and file systems; all numbers of messages that can be written", "why_tests_cant": "Tests run with a working stderr; that the panics are exactly those of the warnings, for every text and every point of failure, and never spoil a file, needs the exact list of warnings of all texts.", "anchors": ["src/lib.rs:parse_str", "src/lib.rs:parse_filepath", "src/dom.rs:to_string_with_indent", "src/dom.rs:write_to_filepath_with_indent", "src/lib.rs:parse_stream", "src/dom.rs:write_to_file_with_indent"]}
