{"id": "C01", "title": "Serialised text carries no raw markup", "statement": "Whatever bytes a text node holds, the bytes Document.XML writes for it contain no '<' and no '>' and every '&' in them begins a complete reference (&amp; &lt; &gt; or a numeric reference), so text can never open a tag or a reference of its own.", "quantifier": "every byte string used as text content, valid UTF-8 or not, of any length", "why_tests_cant": "the escaper works on a byte window with UTF-8 decoding; a test can only sample strings, and the dangerous inputs are the malformed ones", "anchors": ["dump.go:escapeText", "dump.go:isInCharacterRange", "dump.go:DumpNode"]}
{"id": "C02", "title": "Text survives serialisation", "statement": "Reading the serialised form of a text node back with an XML reference decoder gives exactly the characters of the node; each invalid byte or non-XML character is replaced by one U+FFFD and nothing else is altered, dropped or duplicated.", "quantifier": "every byte string used as text content", "why_tests_cant": "a round trip over all strings; control characters, the E0 boundary and truncated multi-byte sequences are easily missed", "anchors": ["dump.go:escapeText"]}
{"id": "C03", "title": "Serialised attribute values survive an XML reader", "statement": "The serialised form of an attribute value contains no raw quote, '<', '>', tab or line break, every '&' begins a complete reference, and decoding the references after XML attribute-value normalisation gives back exactly the original characters (invalid ones as U+FFFD).", "quantifier": "every byte string used as an attribute value", "why_tests_cant": "needs every combination of quotes, line breaks, references and malformed UTF-8", "anchors": ["dump.go:escapeAttrValue", "dump.go:DumpNode"]}
{"id": "C04", "title": "Quoted DTD literals re-read as the same literal", "statement": "The quoted literal written for a public/system identifier or an entity's original text starts and ends with the same quote, has no such quote inside, and a reader that strips the quotes and resolves &quot; obtains the original string.", "quantifier": "every byte string used as identifier or original entity text", "why_tests_cant": "the choice of quote depends on which quotes occur anywhere in the string", "anchors": ["dump.go:dumpQuotedString"]}
{"id": "C05", "title": "Parse and subset options are independent flags", "statement": "Setting one ParseOption (or LoadSubsetOption) makes exactly that option test as set; testing any other option is unaffected by it.", "quantifier": "every pair of distinct exported option constants and every previously set combination", "why_tests_cant": "tests only set the options they look at; overlap shows up only in pairs", "anchors": ["bitset.go:parseOption.Set", "bitset.go:IsSet", "interface.go:ParseOption", "interface.go:LoadSubsetOption"]}
{"id": "C06", "title": "Stacks are last-in first-out and never lose entries", "statement": "For any history of pushes and pops, the stack holds exactly the pushed-and-not-popped entries in order; Peek(n) returns the newest min(n,len) of them oldest first, popping more than is there empties it, and storage reallocation is invisible.", "quantifier": "every sequence of Push, Pop(n) and Peek(n) with any n >= 0", "why_tests_cant": "the reallocation rule depends on capacity history; only particular lengths trigger it", "anchors": ["internal/stack/stack.go", "internal/stack/simple.go", "stack.go:nodeStack"]}
{"id": "C07", "title": "Unique stack holds one entry per key and finds the newest", "statement": "A unique stack rejects a push whose key is present and leaves itself unchanged, never holds two entries with one key, and Lookup returns the entry pushed under a key, or the nil item if there is none.", "quantifier": "every sequence of Push, Pop and Lookup over any keys", "why_tests_cant": "uniqueness is an invariant of histories, not of one call", "anchors": ["internal/stack/unique.go", "stack.go:nsStack"]}
{"id": "C08", "title": "Character references denote exactly their number", "statement": "A numeric character reference in content or in an entity value is either delivered as exactly the character whose code point the digits denote, that code point being a legal XML character, or is reported as an error.", "quantifier": "every digit string in decimal or hexadecimal, of any length", "why_tests_cant": "32-bit accumulation only misbehaves for specific huge values", "anchors": ["parserctx.go:parseCharRef", "parserctx.go:parseStringCharRef", "parserctx.go:accumulateDecimalCharRef", "parserctx.go:accumulateHexCharRef"]}
{"id": "C09", "title": "Only legal XML characters are accepted as character data", "statement": "Every character that Parse delivers through Characters, Comment or ProcessingInstruction events lies in the XML Char production.", "quantifier": "every input document and every handler", "why_tests_cant": "a forbidden character can hide anywhere in an arbitrarily long run", "anchors": ["parserctx.go:isChar", "parserctx.go:parseCharData", "parserctx.go:parseCDSect", "parserctx.go:parseComment", "parserctx.go:parsePI"]}
{"id": "C10", "title": "Attribute values are normalised as XML prescribes", "statement": "For an attribute without a tokenised declaration, the value reported is the literal with each literal tab or line break turned into one space, character references replaced by their characters (an ampersand reference kept as the escape &#38;), and everything else unchanged.", "quantifier": "every quoted attribute literal of any length", "why_tests_cant": "an equality between an input scanner and a specification over all literals", "anchors": ["parserctx.go:parseAttributeValueInternal", "parserctx.go:parseAttributeValue"]}
{"id": "C11", "title": "Tokenised attribute values have spaces trimmed and collapsed", "statement": "Normalising a tokenised (non-CDATA) attribute value strips leading and trailing spaces and collapses each inner run of spaces to one, changing nothing else, for every value; it is idempotent and never fails.", "quantifier": "every string, including empty and all-space strings", "why_tests_cant": "boundary strings (all spaces) are where index arithmetic goes wrong", "anchors": ["parserctx.go:attrNormalizeSpace"]}
{"id": "C12", "title": "Encoding detection is sound and exhaustive over signatures", "statement": "Encoding detection names an encoding exactly when the document starts with one of the documented signatures, picks the documented one when several are prefixes of each other, and consumes a byte-order mark but none of the document's own characters.", "quantifier": "every byte sequence, including those shorter than four bytes", "why_tests_cant": "the order of overlapping prefixes matters for all continuations", "anchors": ["parserctx.go:detectEncoding", "parserctx.go:patUTF8 and the other patterns"]}
{"id": "C13", "title": "Encoding names are looked up case-insensitively from a fixed table", "statement": "encoding.Load depends on the name only up to letter case, returns a codec for each listed name and nil for every other name.", "quantifier": "every string used as encoding name", "why_tests_cant": "nil for every unlisted name is a claim about infinitely many names", "anchors": ["encoding/encoding.go:Load"]}
{"id": "C14", "title": "SAX2 dispatch is one-to-one", "statement": "Calling any SAX2 method calls exactly the handler installed for that event with the same arguments and returns its result; with none installed it returns ErrHandlerUnspecified and has no effect.", "quantifier": "every method, every assignment of handlers and every argument", "why_tests_cant": "a copy-paste slip between similar methods only shows for a particular pair", "anchors": ["sax/sax2.go"]}
{"id": "C15", "title": "Element events are properly nested", "statement": "Whenever Parse returns success, the StartElementNS and EndElementNS events it delivered form a properly nested sequence in which each end event carries the same name as the start event it closes; and at every moment of any run, successful or not, the ends delivered never exceed the starts.", "quantifier": "every input document and every handler", "why_tests_cant": "a property of complete event histories over all documents and nesting depths", "anchors": ["parserctx.go:parseElement", "parserctx.go:parseStartTag", "parserctx.go:parseEndTag", "parserctx.go:parseContent"]}
{"id": "C16", "title": "Event order follows the document grammar", "statement": "On success the events are: SetDocumentLocator, StartDocument, comments and processing instructions, at most one internal subset with declarations, more comments and processing instructions, one root element with its content, comments and processing instructions, EndDocument last; nothing is delivered after EndDocument.", "quantifier": "every accepted document", "why_tests_cant": "ordering over all documents", "anchors": ["parserctx.go:parseDocument", "parserctx.go:parseMisc"]}
{"id": "C17", "title": "Accepted documents have exactly one root element", "statement": "If Parse returns success then the input has exactly one top-level element and nothing but comments, processing instructions and white space around it.", "quantifier": "every input accepted by Parse", "why_tests_cant": "trailing garbage of any shape", "anchors": ["parserctx.go:parseDocument"]}
{"id": "C18", "title": "Mismatched end tags are rejected", "statement": "A document in which some end tag's name differs from the name in the start tag it closes is never accepted.", "quantifier": "every input", "why_tests_cant": "mismatches may occur at any depth and with any names, including one name being a prefix of the other", "anchors": ["parserctx.go:parseEndTag"]}
{"id": "C19", "title": "A failing handler stops the parse", "statement": "If a SAX handler returns an error other than ErrHandlerUnspecified, Parse delivers no further event and returns a non-nil error; a handler returning nil or ErrHandlerUnspecified has no influence on parsing.", "quantifier": "every document, every event and every handler behaviour", "why_tests_cant": "each of the many delivery points is a place where the error can be dropped", "anchors": ["parserctx.go (all s.<Event> call sites)", "sax/interface.go:ErrHandlerUnspecified"]}
{"id": "C20", "title": "Errors are wrapped once with a position", "statement": "Every error that leaves Parse through the error helper carries the parse position, and wrapping an already wrapped error does not change it.", "quantifier": "every error and every cursor position", "why_tests_cant": "needs all error paths", "anchors": ["parserctx.go:error", "errors.go"]}
{"id": "C21", "title": "Parsing terminates", "statement": "Parse returns after a number of steps bounded by the size of the input (with no entity declarations, linear in it).", "quantifier": "every input byte sequence", "why_tests_cant": "non-termination cannot be observed by a test, and the triggering inputs are rare", "anchors": ["parserctx.go:parseDocument", "parserctx.go:parseContent", "parserctx.go:parseNmtoken", "parserctx.go:parseInternalSubset"]}
{"id": "C22", "title": "Parsing never panics", "statement": "Parse never panics, whatever the input: it returns a document or an error.", "quantifier": "every input byte sequence", "why_tests_cant": "panics sit behind rare inputs", "anchors": ["parserctx.go:parseEntityRef", "parserctx.go:parseStartTag", "tree.go"]}
{"id": "C23", "title": "Repeated attributes are rejected", "statement": "A start tag in which an attribute name occurs twice is rejected, and no accepted element carries two attributes of one name.", "quantifier": "every start tag, any number of attributes", "why_tests_cant": "the duplicate can be at any distance", "anchors": ["element.go:SetAttribute", "parserctx.go:parseStartTag"]}
{"id": "C24", "title": "Namespace declarations scope to their element", "statement": "A prefix is bound to the URI of the innermost enclosing declaration of that prefix, and a declaration has no effect outside the element that carries it.", "quantifier": "every document, any nesting and sibling structure", "why_tests_cant": "scoping bugs need specific sibling/nesting arrangements", "anchors": ["parserctx.go:parseStartTag", "parserctx.go:pushNS", "parserctx.go:lookupNamespace", "stack.go:nsStack"]}
{"id": "C25", "title": "Comments are delivered verbatim and terminated", "statement": "A comment event carries exactly the characters between '<!--' and '-->'; a comment containing '--' elsewhere, or not terminated, is rejected.", "quantifier": "every comment of any length", "why_tests_cant": "the hyphen look-ahead window interacts with every position and with end of input", "anchors": ["parserctx.go:parseComment"]}
{"id": "C26", "title": "Processing instructions are delivered verbatim and terminated", "statement": "A processing-instruction event carries the target name and exactly the data up to '?>'; the reserved target xml and unterminated instructions are rejected.", "quantifier": "every processing instruction", "why_tests_cant": "every data string, including ones containing '?'", "anchors": ["parserctx.go:parsePI", "parserctx.go:parsePITarget"]}
{"id": "C27", "title": "CDATA sections are delivered verbatim", "statement": "A CDATA section's characters, any text without ']]>' including the empty text, are delivered exactly, and appear in the tree built for the document.", "quantifier": "every CDATA section", "why_tests_cant": "the delimiter search and the empty case", "anchors": ["parserctx.go:parseCDSect", "parserctx.go:parseCharData", "tree.go:CDataBlock"]}
{"id": "C28", "title": "Character data is delivered exactly", "statement": "The concatenation of the character events between two pieces of markup equals the source text there, with CR LF read as LF; nothing is lost, duplicated or reordered, however the text is split into events.", "quantifier": "every run of character data of any length", "why_tests_cant": "the split points depend on the input", "anchors": ["parserctx.go:parseCharData", "parserctx.go:areBlanks"]}
{"id": "C29", "title": "The XML declaration's fields are reported as written", "statement": "Version, encoding and standalone reported for a document are those written in its XML declaration, with the documented defaults when absent; a malformed declaration is rejected.", "quantifier": "every XML declaration", "why_tests_cant": "optional parts, quotes and spacing combine", "anchors": ["parserctx.go:parseXMLDecl", "parserctx.go:parseVersionInfo", "parserctx.go:parseEncodingDecl", "parserctx.go:parseStandaloneDecl"]}
{"id": "C30", "title": "The tree mirrors the events", "statement": "The document built by the default tree builder from a well-nested event sequence has, in order, one element per start event with its attributes, one text node per maximal run of adjacent character events, one comment per comment event, each under the element open at that moment.", "quantifier": "every well-nested event sequence", "why_tests_cant": "an equality of trees over all event histories", "anchors": ["tree.go:TreeBuilder"]}
{"id": "C31", "title": "Tree links stay consistent", "statement": "After any sequence of AddChild and AddSibling calls that attach fresh nodes, following NextSibling from FirstChild and PrevSibling from LastChild gives the same children in opposite orders, every child's Parent is the node, and no node is in two child lists or its own descendant.", "quantifier": "every history of tree-building calls", "why_tests_cant": "pointer corruption surfaces only on later traversals of particular shapes", "anchors": ["node.go:addChild", "node.go:addSibling", "text.go", "comment.go", "element.go", "document.go"]}
{"id": "C32", "title": "AddChild appends and nothing else changes", "statement": "Adding a fresh node appends it as last child, except that text added after text extends the existing node; no other node's children, content, name or attributes change.", "quantifier": "every tree and every node added", "why_tests_cant": "a frame condition over the whole tree", "anchors": ["node.go:addChild", "text.go:AddSibling", "text.go:AddChild"]}
{"id": "C33", "title": "Content is the document-order concatenation of text", "statement": "Content() of a node equals the concatenation, in document order, of the text of its leaves, and adding content extends it by exactly the added bytes.", "quantifier": "every tree shape", "why_tests_cant": "all depths and merge patterns", "anchors": ["node.go:Content", "node.go:addContent", "text.go"]}
{"id": "C34", "title": "Walk visits every node once in document order", "statement": "Walk calls the callback on the node and all its descendants exactly once each, parents before children and siblings in order, and stops at the first callback error, returning it.", "quantifier": "every tree and every callback", "why_tests_cant": "all tree shapes and all failure positions", "anchors": ["node.go:Walk"]}
{"id": "C35", "title": "Replacing a node substitutes it in place", "statement": "After old.Replace(new) with a fresh new node, the sibling list is the former one with new at old's position, parent and boundary links adjusted, and other nodes untouched.", "quantifier": "every position in every sibling list", "why_tests_cant": "first, middle, last and only child behave differently", "anchors": ["node.go:replaceNode"]}
{"id": "C36", "title": "Setting the document element keeps a single root", "statement": "SetDocumentElement makes the given element the only top-level element: it replaces the existing root in place, or is appended when there is none, and other top-level nodes stay.", "quantifier": "every document and every element", "why_tests_cant": "comments and instructions around the root in all arrangements", "anchors": ["document.go:SetDocumentElement"]}
{"id": "C37", "title": "Owner document propagates to the whole subtree", "statement": "After SetTreeDoc(doc) every node of the subtree reports doc as owner and no node outside changes.", "quantifier": "every tree and initial ownership", "why_tests_cant": "depends on which nodes already have the owner", "anchors": ["node.go:setTreeDoc", "node.go:setListDoc"]}
{"id": "C38", "title": "Attribute set and get agree", "statement": "After a successful SetAttribute(name, value) with a value free of references, Attributes() lists the attribute last with exactly that value, and earlier attributes are unchanged; setting an existing name fails and changes nothing.", "quantifier": "every element history, every name and value", "why_tests_cant": "history and value space unbounded", "anchors": ["element.go:SetAttribute", "element.go:Attributes", "document.go:CreateAttribute", "document.go:stringToNodeList", "attr.go:Value"]}
{"id": "C39", "title": "The first entity declaration is binding", "statement": "When an entity name is declared more than once, lookups keep returning the first declaration.", "quantifier": "every sequence of entity declarations", "why_tests_cant": "depends on declaration histories", "anchors": ["dtd.go:AddEntity", "dtd.go:LookupEntity"]}
{"id": "C40", "title": "Element declarations are unique and can be found", "statement": "An element can be declared once per DTD: redeclaration fails and changes nothing; every declared element is found again by its name and only by its name.", "quantifier": "every sequence of declarations and lookups", "why_tests_cant": "key construction can collide for particular names", "anchors": ["dtd.go:AddElementDecl", "dtd.go:LookupElement", "dtd.go:GetElementDesc", "document.go:IsMixedElement"]}
{"id": "C41", "title": "Attribute declarations are keyed by element and attribute", "statement": "A registered attribute declaration is found for exactly its element, local name and prefix, and registering another attribute never affects it; the first registration for a key is kept.", "quantifier": "every sequence of registrations and lookups", "why_tests_cant": "string-concatenated keys may collide for rare names", "anchors": ["dtd.go:RegisterAttribute", "dtd.go:LookupAttribute"]}
{"id": "C42", "title": "Content-model values are validated and copied faithfully", "statement": "Only element particles carry names; copying a content model yields an equal independent model of the same shape, names, prefixes and occurrences.", "quantifier": "every content-model tree", "why_tests_cant": "all shapes and depths", "anchors": ["valid.go:newElementContent", "valid.go:copyElementContent"]}
{"id": "C43", "title": "Content models re-read as themselves", "statement": "Serialising a declared content model and parsing it again gives the same model, and the model parsed from a declaration denotes the same set of child sequences as the declaration's text.", "quantifier": "every content-model expression", "why_tests_cant": "grouping and occurrence signs combine without bound", "anchors": ["dump.go:dumpElementContent", "parserctx.go:parseElementChildrenContentDeclPriv", "parserctx.go:parseElementMixedContentDecl"]}
{"id": "C44", "title": "Entity expansion is bounded", "statement": "Expanding entities terminates for every set of entity declarations, including self-referential ones, which are reported as errors.", "quantifier": "every set of entity declarations and every reference", "why_tests_cant": "cyclic declarations of any length and sheer expansion depth", "anchors": ["parserctx.go:decodeEntitiesInternal", "parserctx.go:parseBalancedChunkInternal", "document.go:stringToNodeList"]}
{"id": "C45", "title": "Serialised elements have balanced tags", "statement": "The serialised form of any element tree is a well-nested sequence of tags, each closed by the name that opened it, whatever the texts and attribute values.", "quantifier": "every element tree", "why_tests_cant": "arbitrary depth and arbitrary content", "anchors": ["dump.go:DumpNode"]}
{"id": "C46", "title": "Parsing a serialised document gives the same document", "statement": "For a document made of elements, attributes, text and comments with legal names and characters, Parse(XML(doc)) succeeds and its tree equals doc's, adjacent texts merged.", "quantifier": "every such document", "why_tests_cant": "the composition of escaper, tokenizer and tree builder over all trees", "anchors": ["dump.go:DumpDoc", "parserctx.go:parseDocument", "tree.go"]}
{"id": "C47", "title": "Serialisation is stable under reparsing", "statement": "Serialising, parsing and serialising again gives the same bytes as serialising once.", "quantifier": "every document of that class", "why_tests_cant": "fixpoint over all documents", "anchors": ["dump.go:DumpDoc", "parserctx.go:parseDocument"]}
{"id": "C48", "title": "Every node kind serialises to its own syntax", "statement": "Every kind of node a document can hold is written in the syntax that the parser reads back as that kind.", "quantifier": "every node kind and every content", "why_tests_cant": "each kind times each content", "anchors": ["dump.go:DumpNode", "dump.go:dumpEntityDecl", "dump.go:dumpAttributeDecl"]}
{"id": "C49", "title": "helium-lint terminates", "statement": "The helium-lint command always finishes: every schedule of its reader goroutine and main loop ends with the process exiting, for every set of file arguments.", "quantifier": "every interleaving and every list of readable or unreadable files", "why_tests_cant": "deadlocks depend on schedules", "anchors": ["cmd/helium-lint/helium-lint.go"]}
{"id": "C50", "title": "Names are taken maximally and are legal", "statement": "A name token read by the parser is a non-empty legal XML name and is the longest one at that position; what follows is left unread.", "quantifier": "every input position and every continuation", "why_tests_cant": "all character sequences, including at the length limit", "anchors": ["parserctx.go:parseName", "parserctx.go:parseNCName", "parserctx.go:parseQName", "parserctx.go:isNameStartChar"]}
{"id": "C51", "title": "Qualified names split at their first colon", "statement": "Reading prefix:local reports exactly that prefix and local part; a name without colon has an empty prefix.", "quantifier": "every qualified name", "why_tests_cant": "names with several or misplaced colons", "anchors": ["parserctx.go:parseQName"]}
{"id": "C52", "title": "Document metadata survives serialisation", "statement": "The XML header written for a document carries its version (1.0 by default), its encoding exactly when one was set, and standalone exactly when explicitly given.", "quantifier": "every version, encoding and standalone value", "why_tests_cant": "all combinations", "anchors": ["dump.go:dumpDocContent", "document.go:NewDocument"]}
{"id": "C53", "title": "White space between markup is classified, never lost", "statement": "Each run of blank character data is delivered exactly once, either as ignorable white space or as characters, according to the surrounding markup and the element's declaration.", "quantifier": "every blank run in every context", "why_tests_cant": "depends on look-ahead and on the DTD", "anchors": ["parserctx.go:areBlanks", "parserctx.go:parseCharData"]}
{"id": "C54", "title": "Node kinds print their names", "statement": "The printable name of every node kind is the documented one and distinct kinds have distinct names; values outside the range are reported as such, without failing.", "quantifier": "every integer value of the kind", "why_tests_cant": "index tables with out-of-range values", "anchors": ["element.go:ElementType.String (generated table)", "parser_interface.go"]}
{"id": "C55", "title": "Well-formed documents are parsed to their meaning, ill-formed ones refused", "statement": "For every document of the XML grammar (without document type declaration) Parse succeeds and delivers exactly the events the grammar assigns to it; when a well-formed beginning is followed by something the grammar does not allow there, Parse returns an error.", "quantifier": "every document of the grammar, every cut point and every ill-formed continuation of the listed kinds, with and without byte order mark, every accepting handler", "why_tests_cant": "The grammar is infinite and recursive; tests only sample it.", "anchors": ["parserctx.go: parseDocument, parseContent, parseElement", "parser.go: Parse"]}
{"id": "C56", "title": "Declarations of the internal subset are reported as written", "statement": "For every document whose document type declaration has an internal subset of entity, element and attribute declarations, comments and processing instructions, Parse reports every declaration once, in order, with the names, types, defaults and replacement texts that were written, and then the content under these declarations.", "quantifier": "every internal subset and every document under it", "why_tests_cant": "the grammar of declarations is infinite and the declarations act on the whole document after them", "anchors": ["parserctx.go: parseInternalSubset, parseMarkupDecl, parseEntityDecl, parseAttributeListDecl, parseElementDecl"]}
{"id": "C57", "title": "References to declared entities are expanded in place", "statement": "When the content of an element refers to an entity declared in the internal subset, the content of the entity's replacement text is reported in its place, nested references included, whether the events are consumed directly or by the tree builder.", "quantifier": "every set of entity declarations without recursion, every place of reference, nesting up to the limit", "why_tests_cant": "replacement texts are documents themselves and may refer to each other", "anchors": ["parserctx.go: parseReference, parseEntityRef, parseBalancedChunkInternal", "tree.go: Reference"]}
{"id": "C58", "title": "Default values of attributes are supplied", "statement": "An element that lacks an attribute with a declared default is reported with that attribute and its default value, once; an attribute that is present is not reported a second time.", "quantifier": "every set of attribute declarations and every element", "why_tests_cant": "all combinations of declared and present attributes", "anchors": ["parserctx.go: parseAttributeListDecl, addAttributeDefault, parseStartTag", "tree.go: StartElementNS"]}
{"id": "C59", "title": "Attributes of tokenised types are normalised", "statement": "The value reported for an attribute declared with a type other than CDATA has no leading or trailing spaces and single spaces between its tokens; the value of an attribute declared CDATA or not declared keeps its spaces.", "quantifier": "every declaration and every literal value", "why_tests_cant": "depends on declarations read before and on all values", "anchors": ["parserctx.go: parseAttributeListDecl, parseAttribute, attrNormalizeSpace"]}
{"id": "C60", "title": "Declarations become nodes of the internal subset", "statement": "The tree of a parsed document with a DOCTYPE has the nodes the document denotes, and among them an internal subset node with one child for every entity, element and attribute declaration, in document order, carrying the declared name, text, content model, type and default.", "quantifier": "every document of the grammar with a document type declaration", "why_tests_cant": "ranges over all declarations and their order, and over all documents around them", "anchors": ["tree.go: InternalSubset, EntityDecl, ElementDecl, AttributeDecl", "document.go: AddEntity", "dtd.go: AddElementDecl, RegisterAttribute"]}
{"id": "C61", "title": "Declarations can be looked up after the parse", "statement": "After a successful parse the document finds every declared entity and parameter entity by its name, and its internal subset every declared element and attribute, with the value of the declaration that binds.", "quantifier": "every document of the grammar with a document type declaration and every name declared in it", "why_tests_cant": "ranges over all declarations and names, and over declarations of other things that may share a key", "anchors": ["document.go: GetEntity, GetParameterEntity", "dtd.go: LookupElement, LookupAttribute"]}
{"id": "C62", "title": "A document with declarations survives writing and reading", "statement": "Serialising a document with an internal subset of entity, element and attribute declarations gives a document that parses to the same tree, with the same declarations in the same order, all of which are found again.", "quantifier": "every document tree with an internal subset, however it was built, and every mix of declarations in it", "why_tests_cant": "ranges over all trees, names, values, content models and defaults, and over how the declarations change what the content means", "anchors": ["dump.go: DumpDoc, dumpDTD, dumpEntityDecl, dumpElementDecl, dumpAttributeDecl, dumpQuotedString", "parserctx.go: parseInternalSubset, parseEntityDecl, parseAttributeListDecl, parseElementDecl", "tree.go: EntityDecl, ElementDecl, AttributeDecl"]}
{"id": "C63", "title": "Only well-formed documents are accepted", "statement": "If a document is parsed without error then it is a well-formed XML document, and the events (or the tree) reported are the ones its text denotes: there is nothing in the text that was not reported and nothing reported that is not in the text.", "quantifier": "every byte sequence, every handler that knows no entities by itself, including the tree builder", "why_tests_cant": "ranges over all inputs: a test shows that one ill-formed text is refused, not that no other is let through", "anchors": ["parser.go: Parse", "parserctx.go: parseDocument, parseXMLDecl, parseMisc, parseElement, parseContent, parseStartTag, parseEndTag, parseAttribute, parseAttributeValueInternal, parseComment, parsePI, parseCDSect, parseReference, parseQName"]}
{"id": "C64", "title": "A failing write is reported", "statement": "If the writer given to XML returns an error from any of the calls made on it, then XML returns an error; if XML returns nil, the writer has taken the whole text of the document or node.", "quantifier": "every document or node, every writer, every point at which a write can fail, fully or after part of its bytes", "why_tests_cant": "ranges over all trees and all points of failure: a test fails one write of one document", "anchors": ["dump.go: DumpDoc, DumpNode, dumpDTD, dumpQuotedString, dumpEntityContent, escapeText, escapeAttrValue", "document.go: XML, XMLString", "element.go: XML, XMLString"]}
{"id": "C65", "title": "A failed serialisation leaves the beginning of the document", "statement": "Whatever errors the writer returns, the bytes it has taken when XML returns are the beginning of the text that would have been written to a writer that does not fail.", "quantifier": "every document or node, every writer, every sequence of failing and succeeding writes", "why_tests_cant": "ranges over all trees and all schedules of failures of the writer", "anchors": ["dump.go: DumpDoc, DumpNode, dumpDTD, dumpQuotedString, dumpEntityContent, escapeText, escapeAttrValue"]}
{"id": "C66", "title": "Links stay consistent when nodes are replaced", "statement": "After any sequence of calls that create nodes, attach them, add content, set attributes, owners and namespaces, replace nodes (Replace) and set the document element, the links of the nodes in use agree: each node's children are one list, read the same forwards, backwards and by parent. No call panics or fails to end, and what was replaced has no influence on what happens to the rest.", "quantifier": "every history of such calls, of any length and mix, and every tree it builds", "why_tests_cant": "ranges over all histories: a replaced node keeps its own links, so whether a stale link is ever followed depends on what the calls after the replacement touch", "anchors": ["node.go: replaceNode, addChild, addSibling, setTreeDoc", "element.go: Replace, SetNamespace, SetAttribute", "document.go: SetDocumentElement"]}
{"id": "C67", "title": "Parsed documents can be edited", "statement": "On a document that Parse returned, as on one built by calls, and after any history of edits that may include Replace and SetDocumentElement: navigation is consistent among the nodes still in use, no edit panics, and AddChild, AddSibling, AddContent, Replace, SetDocumentElement, SetTreeDoc, SetAttribute, Content, Walk and Attributes each do exactly what they do on a freshly built tree.", "quantifier": "every accepted input (or none) and every finite history of edits of the nodes in use", "why_tests_cant": "the states are produced by arbitrary inputs followed by arbitrary edits", "anchors": ["tree.go", "node.go", "element.go:SetAttribute", "document.go:SetDocumentElement", "parserctx.go:parseDocument"]}
{"id": "C68", "title": "Accepted document type declarations", "statement": "If Parse accepts a document with a document type declaration, the declaration is built of well-formed element, attribute-list and entity declarations, comments, processing instructions and parameter entity references, and the handler is told of exactly these declarations, once each, in their order, between InternalSubset and ExternalSubset.", "quantifier": "every input that is accepted, every handler", "why_tests_cant": "ranges over all internal subsets, also malformed ones, and every order of declarations", "anchors": ["parserctx.go:parseDocTypeDecl", "parserctx.go:parseInternalSubset", "parserctx.go:parseMarkupDecl", "parserctx.go:parseElementDecl", "parserctx.go:parseAttributeListDecl", "parserctx.go:parseEntityDecl"]}
{"id": "C69", "title": "Accepted documents are reported under their declarations", "statement": "If Parse accepts a document with a document type declaration, the text after the declaration is well-formed, and the handler is told exactly what it denotes under the declarations: the value of an attribute is normalised by the type declared for it, every attribute with a declared default is added to the start tags of its element, and of several declarations of one attribute the first is the binding one.", "quantifier": "every input that is accepted, every handler", "why_tests_cant": "ranges over all combinations of declarations and content, also malformed ones", "anchors": ["parserctx.go:parseDocument", "parserctx.go:parseStartTag", "parserctx.go:parseAttribute", "parserctx.go:addAttributeDefault", "parserctx.go:addSpecialAttribute", "parserctx.go:parseReference"]}
{"id": "C70", "title": "Every document can be serialised", "statement": "Serialising a document that was parsed or built by calls, and possibly edited, always ends: XML and XMLString return the text or an error, they never panic and never run forever, and the text is the same every time.", "quantifier": "every accepted input and every history of editing calls, every node of the resulting trees", "why_tests_cant": "ranges over all histories of calls and all trees, including those with declarations", "anchors": ["document.go:XML", "document.go:XMLString", "dump.go:DumpDoc", "dump.go:DumpNode", "dump.go:dumpDTD", "dump.go:dumpElementContent"]}
{"id": "C71", "title": "Edited documents survive writing and reading", "statement": "After a document was parsed and edited, writing it and parsing the text gives the document as it was after the edits.", "quantifier": "every accepted input and every history of editing calls", "why_tests_cant": "ranges over all histories of editing calls", "anchors": ["document.go:XML", "dump.go:DumpDoc", "dump.go:DumpNode", "parser.go:Parse", "node.go:addChild", "element.go:Replace", "element.go:SetAttribute"]}
{"id": "C72", "title": "Reported declarations are of the kinds there are", "statement": "A declaration reported to a SAX handler carries constants of the interface only: the element type is EMPTY, ANY, MIXED or ELEMENT and comes with a content model exactly for the last two, the parts of a model are of the four kinds and all there, the types of attributes, defaults and entities are those of XML.", "quantifier": "every handler and every input, accepted or not", "why_tests_cant": "ranges over all inputs and all handlers", "anchors": ["sax/sax2.go:ElementDecl", "sax/sax2.go:AttributeDecl", "parserctx.go:parseElementDecl", "parserctx.go:parseElementContentDecl", "parserctx.go:parseElementChildrenContentDeclPriv", "parserctx.go:parseAttributeType", "parserctx.go:parseDefaultDecl", "parserctx.go:parseEntityDecl"]}
{"id": "C73", "title": "Parsing is deterministic although maps are visited in any order", "statement": "Parsing the same input twice with the same handler gives the same result, the same events and the same tree, although Go visits the map of declared defaults in an order that changes from run to run.", "quantifier": "every input, every handler, every two orders of visiting maps", "why_tests_cant": "the runtime chooses the order; a test sees a few of them", "anchors": ["parserctx.go:parseStartTag", "parserctx.go:lookupAttributeDefault", "parserctx.go:addAttributeDefault", "parserctx.go:cleanSpecialAttribute", "tree.go:StartElementNS"]}
{"id": "C74", "title": "The number of callbacks is at most linear in the input", "statement": "Parsing an input makes at most as many callbacks as the input has bytes, plus a constant, so that a small document cannot keep the handler busy out of proportion.", "quantifier": "every input, every handler, accepted or refused, every size", "why_tests_cant": "a test measures a few documents; the bound is about all of them, and the documents that break it are built for the purpose", "anchors": ["parserctx.go:parseDocument", "parserctx.go:parseContent", "parserctx.go:parseReference", "parserctx.go:parseBalancedChunkInternal", "parserctx.go:parseAttributeListDecl", "sax/interface.go:SAX2Handler"]}
{"id": "C75", "title": "Making an attribute leaves the other nodes alone", "statement": "Creating an attribute in a document, with any value, makes new nodes only: every node that existed before, the declarations of entities included, has the same links, owner and data afterwards.", "quantifier": "every document in every state, every name and value", "why_tests_cant": "a test looks at the attribute made; the claim is about all other nodes, for all values with all kinds of references", "anchors": ["document.go:CreateAttribute", "document.go:stringToNodeList", "document.go:CreateReference"]}
