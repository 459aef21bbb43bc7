# kiss-xml in Rocq: design

## Approach

The crate is pure string/tree code (plus thin file wrappers), so it is modelled as total, computable
Gallina functions, one per Rust function, and properties are proved for all inputs by induction.

* **Strings.** A Rust `String` is a `list N` of Unicode code points; every byte offset the code computes
  is kept (`len_utf8`, `blen`), and slicing at a byte offset that is out of range or not on a character
  boundary yields the explicit outcome `Panic`. This matters: the code really does slice off-boundary.
* **Outcomes.** `outcome A = Ok a | Err e | Panic | Fuel`. `unwrap/expect/index/slice` failures are
  `Panic`. Loops without an obvious structural measure take fuel; a theorem shows `Fuel` is never returned.
* **HashMap.** An association list without duplicate keys; the list order stands for the (arbitrary)
  iteration order. Theorems show nothing observable depends on it.
* **Regex.** Syntax tree + Antimirov partial derivatives; `is_match` is proved equal to "some substring is
  in the language". The anchored one-class patterns are written as boolean functions.
* **&mut self** methods become functions returning the new element.

## Files (rocq/theories)

Model (each definition cites the lines it models):

| file | content |
|---|---|
| `Base.v` | errors, outcomes, and the std string/Vec/HashMap functions used, with byte offsets |
| `Regex.v` | regex engine model (syntax, partial derivatives, unanchored search) |
| `Escape.v` | lib.rs: escape, attribute_escape, text_escape, unescape |
| `Dom.v` | dom.rs: nodes, elements, API, ==, hash, ordering, serialization, documents |
| `ParseTree.v` | parsing.rs: the arena, push/append/pop/top_element/to_dom |
| `Parse.v` | lib.rs parser: next_tag, quote-aware scanning, tag check, parse_new_element, parse_str |
| `Files.v` | UTF-8, file system as a state, parse_filepath, parse_stream, write_to_* |
| `Nodes.v` | dom.rs: Node trait methods per kind, casts, clone_node, node_eq, Document setters |
| `Orders.v` | every function that iterates over a hash map again, with the iteration order as a parameter |
| `Machine.v` | every function that computes with integers again, with `usize` and `i32` of a given machine |
| `Objects.v` | dom.rs: the functions that look at child nodes again, with children of types outside the crate |
| `Patterns.v` | the pattern syntax of the regex crate (as far as used), the five patterns as written |
| `Stack.v` | dom.rs: the recursive functions and dropping again, with a bound on the stack |
| `Calls.v` | dom.rs: searches and removals again, with predicates that have a state and may panic |
| `Errors.v` | errors.rs: error values, the message of every error, Display |
| `Warn.v` | the messages printed on stderr by parsing and serialization |
| `Conformance.v` | the repo's own unit-test expectations evaluated in the model (tests, not proofs) |

Specifications (no algorithm of the model is used in them, except where the file says so: `unescape`, an
API function with its own specification, and the accessors of the data types):

| file | vocabulary |
|---|---|
| `Spec.v`, `SpecEsc.v` | characters, entities, one-pass decoding, exact decoding |
| `SpecDom.v`, `SpecApi.v` | trees, text normal form, pruning, equality, layout of serialized text, API histories |
| `SpecTree.v` | event lists of trees for the arena |
| `SpecLex.v`, `SpecParse.v` | what a tag is, splitting of a text, tag grammar, events, scopes, positions |
| `SpecDoc.v`, `SpecMore.v` | concrete syntax of documents, its meaning, formatting, writable documents |
| `SpecErr.v` | reading a text tag by tag: what may come next, what is wrong where reading stops, panics |
| `SpecWarn.v` | which warnings a text deserves |
| `SpecMean.v` | the items of a text, the tree and the document they stand for |
| `SpecMany.v` | the document that a text with any number of roots stands for |
| `SpecXml.v` | XML 1.0 and Namespaces in XML 1.0: grammar, constraints, meaning |
| `SpecOrders.v` | trees that differ in the order of their maps only, programs over the API |
| `SpecMachine.v` | machines, texts that fit in memory |
| `SpecCycle.v` | texts escaped and decoded again, documents saved and loaded again |
| `SpecObjects.v` | what foreign nodes behave like, the tree put in place of one with foreign nodes |
| `SpecPattern.v` | what a pattern says about a text, how the five patterns read, the White_Space characters |
| `SpecStd.v` | the standard library's operations as documented |
| `SpecPanic.v` | what a program hands to the API: texts to parse, changes of its own |
| `SpecLocal.v` | changing one place of a tree, the part of the text that belongs to it |
| `SpecEmbed.v` | cutting a text after a tag, an element in a new place |
| `SpecSize.v` | sizes of documents in bytes; elements; attributes an element's namespaces are drawn from |
| `Time.v` | the functions of reading again, with a count of steps, and the steps of writing; the table of what operations of the standard library take |
| `SpecTime.v` | numbers of nodes, squares of numbers of children, what an element keeps |
| `SpecMade.v` | classes of arguments, the programs that use them, what ordinary arguments are |
| `SpecTell.v` | calls on an element, not being told apart, trees whose prefixes have namespaces |
| `SpecUndo.v` | nodes with nothing left to take over, calls on attributes and on children, places apart, predicates that do not look into children |
| `SpecConf.v` | exactly which well-formed documents are read as XML says |
| `TimeEdit.v` | searching, text and removing with a clock |
| `SpecTimeEdit.v` | measures of rows: seams, blanks, jumps |
| `SpecEntity.v` | XML documents with entities of their own: replacement, and references as text |
| `TimeEq.v` | comparing, copying, taking out and hashing with a clock |
| `SpecForm.v` | tags, texts and prologs of XML 1.0, seen tag by tag |
| `FormTags.v` | proofs: from tags to trees of markup, and back |
| `SpecWhite.v` | texts between the tags of an element, and texts with the same tags that differ in white space between them |
| `WhiteFacts.v` | proofs: the text of each element, and the run of the parser on a respaced text |
| `SpecCut.v` | the errors for texts that end early |
| `CutFacts.v` | proofs: beginnings of accepted texts, of written documents and of their bytes |
| `SpecSettle.v` | trees with texts side by side joined and blank texts left out |
| `SettleFacts.v` | proofs: what is written of a tree is a layout of what is written of the joined tree |
| `Stderr.v` | text printed on stderr, with the escapes of `{:?}`; the Unicode tables are parameters |
| `SpecStderr.v` | visible characters, tables that agree with ASCII, how a character is shown between quotes, a tag that holds a line |
| `StderrFacts.v` | proofs: escapes and tags are prefix codes, so the output can be decoded |
| `ErrDebug.v` | `Debug` of the errors, as derived |
| `Broken.v` | reading and writing with a stderr that fails after some messages |
| `SpecStack.v` | depth of trees |
| `SpecCalls.v` | which nodes a predicate is asked about, in what order, what its answers remove |
| `SpecBytes.v`, `SpecFiles.v` | UTF-8 well-formedness, file states |

`*Facts.v`, `PrintDoc.v`, `DocProps.v`, `DocCheck.v`, `LexRun.v` contain proofs; `P_*.v` contain only the
property theorems (named `Cnn_...`), non-vacuity examples and refutation witnesses (`..._refuted`: theorems
saying that an attractive stronger claim is false of the code), each followed by `Print Assumptions`.

## Properties: how each is modelled and proved

* C01-C07 (escaping): `replace`, `find`, `unescape`'s byte-offset loop modelled literally. `escape` shown
  equal to a character map; `unescape` shown equal to a single-pass decoder under the ASCII-final guard, by
  induction on the unread suffix; panics by computation on symbolic inputs.
* C08-C10, C23: invariants over constructors/mutations, induction over operation lists.
* C11-C19: index loops (`cleanup_text_nodes`, `remove_by`, ...) modelled with Vec operations that can panic;
  refinement to list functions (`filter`, split at i, runs of text).
* C20-C22: structural induction on trees; descendants specified by paths.
* C24-C28: structural induction; sort uniqueness for hash-order independence.
* C29, C30: structural induction over the serializer.
* C31, C32, C37, C39, C40, C44-C50: a concrete-syntax tree (CST) `print`ed to text and denoting a DOM;
  theorem: parsing the print of any well-formed CST gives its denotation. The serializer's output is the
  print of a CST, hence the round trip; quote/whitespace insensitivity are further instances.
* C33, C34: fuel bound by remaining length; panic-tracing by induction over the parser loop.
* C35: ghost stack of tag names along the loop.
* C36, C37: arena invariant over operation histories; reverse-preorder fold.
* C38, C41-C43: direct case analysis; witnesses by `vm_compute`. C43 for documents with a DTD: what is written has text that is not blank before a tag of the prolog, which no accepted text has (`P_Dtd.v`).
* C51: UTF-8 encoding arithmetic. C52: streams as lists of events, the file system as a state (`Files.v`);
  case analysis and induction over the events.
* C53: `&mut` iterators modelled as functions taking the change made through the references.
* C54-C57: case analysis per node kind; sort/order facts on code-point comparison.
* C58: message construction and Display modelled as string functions; injectivity by prefix analysis.
* C59: a parsed document satisfies every clause of `writable_doc` except names and texts; then C31.
* C60: a character-class invariant carried through lexer, tag splitting, `unescape` and the arena.
* C61: `document_of` of two sources is compared by structural induction over concrete syntax.
* C62, C64: `SpecErr.v` describes reading tag by tag (`reads`) and the three ways it ends (`read_through`,
  `rejected`, `crashes`). `ReadFacts.v` proves, without the parser, that these exclude each other and that the
  error is determined. `ErrFacts.v`, `StepFacts.v`, `LoopFacts.v` prove that each step, exit and panic of the two
  loops is a clause of the description; together this gives "if and only if".
* C65: reading is stable under adding text (`reads_more`), because a tag ends at its last character and where a tag
  starts is decided before its first '>'; an unfinished tag can always be finished; then C64.
* C66: the prolog loop again with the messages it prints (`Warn.v`); same result; messages by induction over
  the loop.
* C67: the items (decoded tags and texts) along the run of the tree machine are those of the finished tree;
  namespaces and prefix tables by the scope invariant; items determine the tree by induction on it
  (`MeanFacts.v`).
* C68: one half is C31. For the other (`TripFacts.v`): an invariant of accepted documents bounds what they hold by
  the number of '<' in the text, so a DTD, written without its delimiters, cannot come back; other invariants
  give the shape of what was written; its tags are then those of one element, and C67 reads the values off it.
* C63: the message is built from the error by `error_value`; its parts are read off clause by clause.
* C69: `ManyFacts.v`. Runs of the builder for one root do not depend on what earlier roots left (`pre_inside`); an
  invariant relates the tags read so far to the trees below the root (`base_state`). Appending from the right with
  clean-up and reversing is computed in closed form (`build_knit`). Uniqueness by comparing the tags one by one.
* C70: `SpecXml.v` writes down the grammar of XML 1.0 and Namespaces in XML (parse trees, their text, constraints,
  meaning; DTDs with all declarations, but without parameter entity references; attribute defaults and the normalization
  of tokenized values are part of what a document says) without reference to the parser; `XmlFacts.v` turns a parse tree of the subset into a source text of C67 and
  shows that the document the source stands for is the one XML says. `XmlCheck.v` has boolean checkers, so that the
  witnesses against dropping each condition are computed. `XmlUnique.v`: the text determines the parse tree, by
  comparing two readings from the left.
* C71: `XmlOut.v` builds, by induction on the tree, the parse tree of the text written, with the layout put in where
  the writer puts it. The other direction (`XmlExact.v`) reads the conditions off the parse tree found.
* C72: `Calls.v` models the calls with closures as functions from argument and state to an answer or a panic and a new
  state. Positions in the tree name what was asked; one round of questions per child list, then induction on the tree
  (`CallsFacts.v`).
* C73: `Orders.v` gives every loop over a map its own order, a permutation chosen by an oracle; two runs with two
  oracles are related by a simulation, function by function (`OrdersFacts.v`), and by induction on programs. With the
  order of the lists the functions are those of the other files, so what is proved about them holds for every order up
  to the order of the tables.
* C74: `Machine.v` has machine arithmetic (wrapping or panicking); function by function it is shown equal to the
  unbounded one by bounding every intermediate value (`MachineFacts.v`): offsets by the length of the text, the depth
  by the number of '<' read, counts by the number of nodes. The witnesses beyond the limit are proved symbolically.
* C75: `Stack.v` recurses on the room left on the stack, as the source recurses; induction on it. The bound on the
  depth by the length of the text counts the characters each tag needs, along C69; the deep texts are sources of C47.

* C76: `CycleFacts.v` gives the result of one cycle of escaping and decoding as a relation on the text itself
  (`rereads`), from the step relation of `unescape` (C55); the relation is applied again to its own result by induction.
  `CycleDoc.v`: a written document is a source whose texts may be undecodable; with `RoundFacts.v` (the reader on written
  sources, generalised to texts that are decoded to something else) it is read to the reworded tree or panics.
* C77: `Objects.v` is parametric in the methods of the foreign types. Each function is carried to the one of `Dom.v` by a
  map of trees (`ObjectsFacts.v`, `ObjectsMore.v`); clone, equality and serialization, where nodes that are none of the four
  kinds make a difference, and nodes that do not tell the truth are in `ObjectsEq.v`.
* C78: `Patterns.v` reads the text of a pattern into a syntax tree; the five texts are copied from the source, so that
  their readings are closed computations. `PatternFacts.v`: patterns without anchors are expressions of `Regex.v`; the anchored ones
  are inverted by hand. This connects the hand-translated checks of `Dom.v` and `Parse.v` with the texts in the source.
* C79: characterisations of the functions of `Base.v`, each by induction on the text, table or vector.
* C80: no call but the listed ones panics, by the equations of the other properties; then induction over programs (those of C73).
* C81: the written text of the children is additive; induction over the path to the changed place.
* C82: reading goes on from the cut as before; the items of the inner text are inserted among those of the outer one, by induction on the tree the items stand for; then C67.
* C83: sizes of words, tags, items, roots and their contents, by induction over the description of accepted texts of C69; namespaces by the pool of attributes written; writing by induction on the tree; witnesses are well-formed sources (C47) with the namespaces of C40.
* C84: every function with a clock gives the result of the one without (by erasing); an amortised bound: each tag pays for the bytes up to its end, each entity reference for the rest of the text; adding nodes by the invariant that there are no adjacent texts; writing by induction on the tree with depth as a factor; lower bounds by a potential (the squares of the numbers of children of what is in the arena) and by families of well-formed sources (C47). Lists and maps of the standard library are charged as in Time.v; this table is part of what is trusted for C84.
* C85: one invariant for all calls, by mutual induction on what programs make (elements, nodes, changes): classes, prefixes with their namespaces, keys of maps, and texts in normal form where the program is careful; cleaning up joins runs of texts of the class (C11), inheriting namespaces changes nothing because of the table; then the exact conditions of C68 and C71 follow from the invariant, with the scoping rule resolved at the root.
* C86: one congruence proof for every call, for any relation of trees that agrees on names, children, inherited namespaces and attribute changes; it is instantiated with sameness up to the order of maps (C73) and with == on trees whose prefixes have namespaces. Conversely the calls themselves find each difference: none shows ==, a child with a prefix and no namespace reads the table, taking a child out leads to the children, by induction on the tree.
* C87: insert and remove are list edits followed by the text cleanup and by adoption of the last child, so undoing is exact where both are identities; for parsed documents both follow from the tree that the text stands for (C67) by induction over its items, at all depths by induction over the path. Orders: changes at places (C75) commute by induction on the common path; removals at all depths by composition of the pruning relation.
* C88: one direction as for C70 with the weaker conditions; for the other, the accepted text is cut into tags in one way only (LexRun), the tree is compared node by node with what XML says, and every way to violate a condition gives a different tag, name, value, text or node, by induction over the parse tree of XML; for the prolog by induction over its pieces along the run of the parser.
* C89: the functions with a clock give the results of those without; the two clean-up loops by induction from the end of the row with the number of seams and blanks as potential; removal by induction from the end with the items kept so far as suffix; the recursive ones by induction on the tree with depth as a factor.
* C90: a reference that is not predefined is left by the unescaping (EntText.v), so texts, tags, items and steps of the parser are those of the document with the references as text, by induction on the parse tree; that replacing never gives the same is shown by counting the ampersands said by texts and attribute values, in the parse trees and in the tree read.
* C91: the functions with a clock give the results of those without; both bounds by induction on the tree over the row of children; for documents the namespaces and tables of each element come from declarations in the text, each counted once.
* C92: from left to right, the run of the parser on a well-formed document is followed tag by tag (C88), so the tags are those of the document; from right to left, a tree of markup is built by induction on the balanced tags (C35), where the name of the start tag, as the crate reads it, is shown to be the name XML reads.
* C93: the items for which a document stands (C67) have, tag by tag, the text that is more than white space and nothing for the rest; for the elements below the root the items are cut at balanced places, by induction on the balanced tags. For respacing, the run of the parser is followed tag by tag on both texts, and both stand for the same items.
* C94: an accepted beginning has balanced tags (C35), which are the first tags of the whole text; counting open elements, a beginning of the tags of one element is balanced only if it is all of them. The rest follows from what C65 says of beginnings and of text after the root. For bytes, a beginning of UTF-8 is either not UTF-8 or the UTF-8 of a beginning.
* C95: the text written for a tree differs from the text written for the joined tree in layout only: runs of texts are written without anything between them, and blank runs are white space between tags. So by C45 both are read alike, and the joined tree is read back by C31. The texts of a program's tree stay of its class when joined, so C85 applies to the joined tree.
* C96: the escape of one character is never a proper beginning of the escape of another, and no escape starts with the closing quote, so a quoted indent can be decoded. A tag is the shortest beginning of its kind, so two tags that begin the same output are equal; shortened comments all have 34 bytes and end in `>`, which the words after a comment do not contain. For a forged line a CDATA section before the root is used, which is ignored with a warning that quotes it.
* C97: the name of the error and the words around its fields are fixed, a quoted message can be decoded (C96), and an integer ends before the first character that is neither a digit nor a minus sign.
* C98: by induction over the messages, the result is kept if all of them are written; which ones there are is known from C66. The text with many warnings is a sequence of CDATA sections before the root. The file system part uses the facts about creating directories that the claims about saving files use.

## Trusted base

* Coq 8.16.1's kernel and `vm_compute` (used for closed computations in examples and witnesses).
* `Print Assumptions` of every manifest theorem says "Closed under the global context": no axiom is used.
  `coqchk -o` lists `Coq.ssr.ssrunder.Under_rel.*` (Under_rel, Under_rel_from_rel, Under_relE, Over_rel,
  over_rel, over_rel_done, under_rel_done), the parameters of a module type of the standard library that is
  loaded with `Lia`'s dependencies; no theorem depends on them.
* That the model is the code: checked by reading (each definition cites its lines), by `Conformance.v`
  (expectations taken from the crate's own tests) and by the seeded bugs of `seeded/LOG.jsonl`.
* Facts about the Rust standard library and the `regex` crate that the model builds in: `str::find`,
  `replace`, `trim`, `split_once`, slicing on character boundaries, `char::is_whitespace` = `\s`, `char::from_u32`,
  `u32::from_str_radix` (leading '+' accepted), `HashMap` as a finite map with arbitrary iteration order,
  `Vec::sort_by` stable, leftmost search of `Regex::is_match` = "some substring is in the language", the pattern syntax of
  `Patterns.v`. C79 shows that the functions of `Base.v` are as the library's documentation (restated in `SpecStd.v`) says,
  C78 how the patterns read; that the library does what it documents is trusted.

## What is modelled and what is not

Modelled: all of `src/lib.rs` (escaping, parser, positions, abbreviation, indents, attribute order, file and
stream entry points), all of `src/parsing.rs`, all of `src/dom.rs` that belongs to the public API (nodes,
elements, documents, declarations, DTDs, mutation, search, equality, hashing, ordering, serialization, file
writing) and `src/errors.rs`.

Simplified, said in the comments of the definitions:
* `&mut` references and iterators become functions from old to new value; predicates are total functions, except in
  `Calls.v` (C72) where they may have a state and panic, and C72 shows when the difference does not matter.
* `Box<dyn Node>` is a sum type of the four node types of the crate, except in `Objects.v` (C77), where users of the crate
  may implement `Node`; their methods are functions of the value that do not panic (but for the default of `node_type`).
* The hasher is the list of values fed to it.
* Integers are unbounded, except in `Machine.v`; C74 shows that the difference does not matter below 2^31 times '<' in
  a text.
* The operating system is a map from paths to contents with possible failure of each operation.

Not modelled: the Unicode tables of the standard library that `{:?}` uses in the warning about a bad indent and the `Debug` of errors (parameters of `Stderr.v`), `Debug` output of I/O errors (that of nodes and
documents is their Display), memory exhaustion, the size in bytes of a stack
frame (C75 counts activations) and what is dropped when a call fails, the `OnceCell` caching of compiled patterns (they are `const` items, so every call makes a new cell and
compiles the pattern again: slow, without effect on the results).

## Findings in the code

Each is a theorem or an example in the `P_*.v` file of the property named.

* `unescape` advances, after each replacement, by the UTF-8 length of the LAST character of the text instead
  of that of the replaced character: panics (`&amp;` + U+263C) and silent changes (C01, C02, C05, C06, C34, C59).
* Numeric references are always read as hexadecimal; a leading '+' is accepted (C05).
* `abbreviate` slices at byte 15 and 16 bytes before the end: a multi-byte comment before the root, or an
  unsupported `<!...>` inside it, can panic (C34).
* A second, not self-closing root is accepted, replaces the first and inherits its children, with text in
  reverse order of the pieces (C38). Other content after the root is rejected, trailing text is ignored.
* The tag pattern is not anchored and its quoted strings can span several attributes: spaces around '=' are
  accepted only after an attribute without them, and tags with markup in quotes pass the check (C44, C46).
* `xmlns:xmlns:p` on an ancestor hijacks prefix `p` (C39); an undeclared prefix is an error only on the root.
* The default namespace is inherited only through unprefixed parents (C40).
* `insert` resolves the namespace of the LAST child instead of the inserted one (C41).
* `Declaration::from_str("<?>")` panics (C42). A declaration may be given twice (C42).
* Display of a DTD drops `<!DOCTYPE` and `>`: documents with DTDs cannot be read any more once they are written; loading such a document and saving it spoils the file (C43).
* Comments starting with `>` or `->` and names with ':' or non-name characters, which the API accepts, do not
  survive serialization (C31).
* `partial_cmp` of elements compares names only (C27, C57). Index errors show indices from 2^63 as negative (C58).
* Column numbers count the character at the position: offset 0 is column 2 (C50).
* `</a/>` is accepted as a closing tag (C35). Name rules of constructors are looser than XML's and stricter
  than the tag pattern (`<é/>` is rejected, C08).
* Attribute values are written with tabs and line ends unescaped, text with carriage returns and control characters,
  comments with "--" inside: the text written is not XML or other readers see another document (C71).
* `remove_by` asks about the children from the last to the first (C72): a predicate that says yes once removes the last
  child, not the first.
* Which of several invalid attribute names is reported depends on the iteration order of a hash map: the message for
  `<a :x='1' :y='2'/>` varies from run to run (C73).
* The `i32` depth counter for `<!...>` tags overflows after 2^31 times '<': panic with overflow checks; without them,
  after 2^32 times '<', an unclosed tag is taken as closed (C74).
* A text of 7k characters makes a document k levels deep, for which writing, cloning, searching and dropping need k nested
  activations: small inputs crash the process after they were parsed (C75).
* Saving and loading a document can make it longer for ever: the text `<<xé` becomes `<&lt;xé`, then `<&amp;lt;xé`, ... (C76).
* An element with a foreign node in it that is none of the four kinds cannot be cloned or compared with itself (panic), and
  `remove_element` removes it before it panics (C77).
* `search` and `all_children` do not follow the order of the document (C21). A text in place of a comment, or a second child
  beside a single comment, changes the layout of everything around (C81).
* `append` hands the default namespace on to the appended element only, not to the elements inside it: reading `<b><c/></b>` and
  appending it to `<a xmlns='u'/>` gives a tree that differs from the one read from `<a xmlns='u'><b><c/></b></a>` (C82).
* A text can make the tree hold quadratically many bytes of namespaces, since each element keeps its own copy: `<a xmlns='uuu...'>` with many
  `<a/>` children (C83).
* Reading takes quadratic time for many siblings (`cleanup_text_nodes` goes over all children each time the parser appends one, src/parsing.rs:108-116)
  and for many entity references in one text (src/lib.rs:289 and `string_insert` copy the rest of the text for each); writing deep nesting takes cubic time,
  since the indented text of every element is copied once for each level above it (src/dom.rs:1468-1471) (C84).
* A program that uses a default namespace together with a prefix gets documents that do not survive saving and loading: an element without prefix inside one
  with a prefix is read without namespace (src/dom.rs:633-638), though the text written is the right XML (C85).
* Two elements that are ==, have the same text and the same hash can behave differently: a child read from a document keeps the prefixes of the document,
  which == does not compare (src/dom.rs:1594-1609), and gives them to what is appended later (C86).
* Removing a child and inserting it at the same index can change its namespace: insert lets the last child take over the namespaces of its parent,
  whichever child was inserted, and a child that was inserted before others has not taken them over yet (src/dom.rs, Element::insert) (C87).
* White space around '=' is accepted in every attribute of a tag after one written without it, but not in the first: `<a k="v" l = "w"/>` is read, `<a l = "w" k="v"/>`
  is rejected (the regular expression for tags, src/lib.rs:727) (C88).
* `append` goes through all children each time (src/dom.rs:1192-1221), so building an element of n children by `append` is quadratic where `append_all` is linear; `append_all` of n texts copies
  the joined text n times; `remove_by` moves the rest of the row for each child removed (src/dom.rs:1348-1350), quadratic where `Vec::retain` would be linear; iterators and `text()` pass every item or byte through every level above it (C89).
* References to entities declared in the DTD are not expanded and undeclared ones are accepted; `&nbsp;` and `&e;` stay in the text as written and come out escaped again (`&amp;nbsp;`) when saved (C90).
* every element keeps a copy of its default namespace and of all prefixes in scope, so `clone` of a document's root, and `==` of two equal roots, can take time quadratic in the text; `remove_element` copies the whole subtree it has just taken out (src/dom.rs:1364-1365) although it owns it; the hash of an element uses only name and namespace, so all elements of one name collide (C91).
* `<a/>x`, `<a></a><b></b>`, `<a>x]]></a>`, `<a>x & y</a>`, `<a><!--x--y--></a>`, `<a></a/>` and `<a k="1" k="2"/>` are accepted, but are not well-formed XML; `<a\u1680></a>` is accepted although the names of its tags differ in XML (C92).
* The documentation says that white space is all preserved if an element contains text, but `<p>Hello <b>big</b> <i>world</i></p>` has the text `Hello bigworld` and is written back as `<p>Hello <b>big</b><i>world</i></p>`; a space given as a reference is lost as well (C93).
* `write_to_filepath` is not atomic: if writing fails half way, the previous document in the file is lost, and what is left cannot be read (C94). A text with two root elements, which is accepted (C38), can be cut off after the first without notice.
* Removing a node between two texts leaves two texts, which are one after saving and loading; two texts that each survive need not survive joined (`<<` and `é`, because of the defect of `unescape`) (C95).
* Warnings about ignored tags of the prolog quote the input without escaping it, so whoever writes an accepted text can print any line and any terminal escape on stderr (C96).
* The display form of errors quotes names and tags without escaping them, so refused input can put any line into a log (C97).
* Warnings are printed with `eprintln!`, so an accepted text panics if stderr cannot be written (C98).
* U+1680 is in the name characters of the tag pattern although it is white space (C31: excluded from names).

## Wrong programs

`seeded/LOG.jsonl` has one line per seeded bug: definition, edit, claims it breaks, theorems that no longer
prove (all of them, found by admitting the failing lemmas in a scratch copy and reading `Print Assumptions`),
theorems added or tightened because of it.
