# Formal model of lestrrat/helium: design

The code in `/repo` (Go) is read as text and modelled, function by function, in
Rocq (Coq 8.16.1) under `rocq/theories`.  Nothing of `/repo` is built or run.

## 1. Shape of the model

* **Bytes and runes** are `Z`; a Go string or `[]byte` is `list Z` (`is_byte`
  where it matters), a decoded input is `list Z` of runes.  `int32` arithmetic
  is wrapped explicitly.
* **Outcomes.** Anything that may fail returns
  `Ret a | Fail e | Pan | Oof`: a value, a Go error, a Go panic, or fuel
  exhausted.  Panics (nil dereference, index out of range, explicit `panic`)
  and endless loops are therefore visible in the model; a loop is recursion on
  fuel, and non-termination is "`Oof` for every fuel".
* **Cursor** (`github.com/lestrrat-go/strcursor`, source not available): the
  list of remaining runes.  What the package does past the end of input is not
  known, so it is a parameter (`env`): the rune that `PeekN` answers
  (hypothesis: `0` or U+FFFD) and what an `Advance` past the end leaves
  (hypothesis: a suffix of the input).
* **Handlers.** The parser model is parametric in an arbitrary SAX handler:
  an arbitrary state type, an arbitrary transition per event, arbitrary
  answers (nil, ErrHandlerUnspecified, error, panic) and arbitrary entity
  lookups.  The default `TreeBuilder` is one instance, acting on the heap.
* **Heap.** DOM nodes live in a finite map from addresses to node records with
  the Go struct's own pointer fields (firstChild, lastChild, parent, next,
  prev, doc, properties); tree theorems are refinements of that heap to
  ordinary inductive trees.
* **Validation of the model.** The fixtures of `/repo/test` that the project's
  own tests assert (`dump_test.go`, `sax_test.go`) are run through the
  executable model by `vm_compute` (`Conformance*.v`).  These are tests of the
  model, not proofs; they guard against a misread of the code.

Files (`rocq/theories`), in the order they are built:

* *Vocabulary and leaf code.* `Base` (strings, outcomes), `Utf8`, `XmlSpec`
  (small specifications from the XML recommendation), `Escape`, `Bitset`,
  `Stack`, `Encoding`, `Sax2`, `Lint`, `Tables`, each with a `…Proofs` file;
  `PropertiesBasic` (C01–C07, C12–C14, C49, C54).
* *Parser.* Model: `Scan` (functions that only move the cursor), `Parser`
  (everything from `parseDocument` down).  Specification: `Grammar`
  (well-formed documents and the events they denote, independent of the
  parser), `Reject` (ill-formed ones).  Proofs: `ScanProofs`, `Effects`,
  `DocEffects`, `Sim`, `LexProofs`, `TextProofs`, `Complete`, `DocComplete`,
  `Wrapped`, `Term`, `NoPanic`, `Legal`, `Local`; samples and
  counterexamples: `Sample`, `Counter`, `ParserEx`; `PropertiesParser`
  (C08–C11, C15–C29, C44, C50, C51, C53, C55).
* *Tree.* Model: `Heap` (nodes and every operation on them), `TreeBuilder`
  (the default handler), `Dump` (the serialiser).  Specification: `TreeShape`,
  `Forest`, `History`.  Proofs: `TreeOps`, `ForestOps`, `ForestAdd`,
  `ForestAttr`, `TreeCalls`, `TreeRead`, `TreeReplace`, `TreeAttrs`,
  `TreeOwner`, `TreeEx`; `PropertiesTree` (C31–C38). `Retire`, `RetireEx`:
  histories with replacements; `PropertiesRetire` (C66).
* *Declarations as API.* `DtdProofs`, `DtdHistory`, `DtdLoop`, `Undeclared`;
  `PropertiesDtd` (C39–C42, C44, C75).
* *Documents as trees.* Specification: `Xml` (trees as values, their text),
  `Mirror` (the tree a list of events describes), `Tidy` (trees that can be
  written), `Nested`.  Proofs: `XmlDump`, `XmlBuild`, `XmlSteps`, `XmlElem`,
  `XmlTree`, `DtdTree`, `XmlParse`, `XmlRound`, `NestedProofs`, `XmlFinal`,
  `XmlGrammar`, `Diverge`, `XmlRefuse`, `XmlEx`; `PropertiesXml` (C23, C27,
  C30, C45–C48, C52).
* *Content models.* `Content` (specification), `ContentProofs`, `ContentDump`;
  `PropertiesContent` (C43).
* *What is accepted.* `Loose` (specification: the grammar with named
  leniencies), `LooseLex`, `LooseDecl`, `LooseProofs`, `LooseDoc`,
  `LooseStrict`, `LooseTree`, `LooseEx`; `PropertiesLoose` (C63).  The same for
  document type declarations: `LooseDtd` (specification), `LooseModel`,
  `LooseSubset`, `LooseBody`, `LooseDtdDoc`, `LooseBodyProofs`, `LooseTables`,
  `LooseDtdEx`; `PropertiesLooseDtd` (C68, C69).
* *Documents with declarations.* `Doctype` (specification), `DoctypeAttr`,
  `DoctypeContent`, `DoctypeSubset`, `DoctypeDoc`, `DoctypeCases`,
  `DoctypeNodes` (specification), `DoctypeTree`, `DoctypeKept`
  (specification), `DoctypeRound`, `DoctypeEx`; `PropertiesDoctype` (C56–C62).
* *Failing writers.* `DumpWrite` (the serialiser as calls of `Write`),
  `DumpWriteProofs`, `DumpWriteTree`; `PropertiesWrite` (C64, C65).
* *Panics with declarations.* `DtdSafe` (with the specification `tame`),
  `DtdSafeEx`; into a tree: `TreeSafe`, `TreeSafeParse` (with the specifications
  `one_default` and `prefixes_named`), `TreeSafeDtd`, `TreeSafeDoctype` (with the
  specification `fitting`), `TreeSafeEx`, `TreeSafeDoctypeEx`; `PropertiesPanic` (C22).
* *Editing parsed documents.* `Edit` (specifications `parsed_heap`, `edited`),
  `EditEx`; `PropertiesEdit` (C67).  Serialising such documents: `DumpTotal` (with the
  specifications), `DumpEdit`, `DumpEditEx`, `DumpDecl`; `DeclRight` (what is reported of
  declarations); `PropertiesDump` (C70 to C72); `Order` (the parser under two orders of visiting maps), `PropertiesOrder` (C73);
  `Linear` (what a callback costs in characters), `Power` (the same with
  nested entities), `TreeEntities` (the tree builder knows of entities what it was told), `Blowup` (entities that refer to
  entities), `PropertiesLinear` (C74).
* *Termination with declarations.* `TermDtd` (`mild`, `subset_ok`: what must not occur in the input for the
  parser to stop), `TermRuns`, `TermDoc`, `TermEx` (a test for these
  conditions), `NextCrash` (a document that crashes the tree builder);
  `PropertiesTerm` (C21 with a document type declaration, C44).
* *Conformance.* the project's own fixtures run through the model.

`Properties*.v` hold only the property theorems, closed by `exact`, each with
an `Example` that a concrete case meets its hypotheses, and
`Print Assumptions` for each at the end.

## 2. Plan per property

| id | modelled | how proved |
|----|----------|-----------|
| C01 | `escapeText` over arbitrary bytes, with `utf8.DecodeRune` | independent scanner of references; induction over the decoding of the input |
| C02 | same + a reference decoder written from the XML recommendation | decode (escape s) = runes of s with invalid ones as U+FFFD; the code writes a numeric reference to control characters, which are not XML characters: refutation of the literal wording |
| C03 | `escapeAttrValue` + attribute-value normaliser from the recommendation | same technique |
| C04 | `dumpQuotedString`, `dumpEntityContent` | proved for strings without a double quote or without an apostrophe; refuted when both occur |
| C05 | `bitset.go`, the option constants | refuted (overlapping constants); proved for ParseRecover..ParseNoBlanks and ParseBigLines pairs |
| C06 | `internal/stack`, `stack.go` | refinement to lists over any history of operations, including the reallocation |
| C07 | `UniqueStack` | invariant over any history |
| C08 | `parseCharRef`, `parseStringCharRef`, `accumulate*` | exactness without overflow; refutation by int32 wrap-around |
| C09 | every place where the parser emits characters, comments, PIs | trace invariant over all inputs and handlers; CDATA and predefined paths examined; refutation where unchecked |
| C10, C11 | `parseAttributeValueInternal`, `attrNormalizeSpace` | against an independent normaliser; refuted for the all-space panic |
| C12 | `detectEncoding` | decision table; refutation of "consumes none of the document" |
| C13 | `encoding.Load` | finite table and a case-folding lemma |
| C14 | `sax/sax2.go` | dispatch function for all handler sets |
| C15–C19, C21, C22 | the whole parser | induction on fuel with trace invariants, for every handler; termination measure for inputs without DOCTYPE, and for inputs with one in which the constructs of `subset_ok` in `TermDtd.v` do not occur (for the tree builder `crashing` of `TreeEntities.v` takes a stack overflow in `CreateAttribute` for a crash); no panic for inputs with a DOCTYPE in which four constructs (`tame` in `DtdSafe.v`) do not occur; no panic when parsing into a tree, with or without a DOCTYPE, unless a namespace entry is missing; refutations for hangs and panics |
| C20 | `ctx.error` and Parse | invariant "every error that leaves Parse is wrapped" |
| C23, C24 | `parseStartTag`, nsStack, `SetAttribute` | tree builder rejects duplicates; refuted for plain SAX handlers; namespace leakage refuted |
| C25, C26, C27, C28, C53 | `parseComment`, `parsePI`, `parseCDSect`, `parseCharData`, `areBlanks` | exactness theorems on any input of the right shape, refutations for the unterminated comment etc. |
| C29 | `parseXMLDecl` and helpers | exactness for well-formed declarations, refutations |
| C30 | `tree.go` on the heap | simulation between the heap and a zipper over inductive trees |
| C31–C38 | `node.go`, `text.go`, `comment.go`, `element.go`, `document.go`, `attr.go` | heap invariant `wf` and refinement to trees |
| C39–C41 | `dtd.go` | table lemmas; refutations (last declaration wins, keys collide, lookup key differs) |
| C42, C43 | `valid.go`, `dumpElementContent`, `parseElementContentDecl…` | copy = identity; language of a model by a small denotational spec; refutations for lost groups |
| C44 | `parseReference`, `parseBalancedChunkInternal`, `stringToNodeList` | depth bound in content; refuted for attribute values (unbounded recursion), also where no entity refers to itself; proved where no entity is declared |
| C45–C48, C52 | `dump.go` | grammar of the output, independent tag scanner; parse∘dump round trip as the flagship theorem; refuted for PIs |
| C49 | `cmd/helium-lint` | state machine of two processes and two channels; deadlock refutation, liveness when every file opens |
| C50, C51 | `parseName`, `parseNCName`, `parseQName` | maximal munch lemma; refutations for leniencies |
| C54 | generated `String` methods | finite table and range split |
| C55 | the whole parser against `Grammar.v` | every document of the grammar is accepted with the events it denotes (induction over the grammar); ill-formed continuations of a well-formed beginning are refused |
| C56–C59 | `parseInternalSubset` and the declarations, entity expansion, attribute types and defaults, against `Doctype.v` | the same for documents with an internal subset; refutations for hanging declarations, defaults reported twice, expansion |
| C60, C61 | `tree.go` and `dtd.go` under the parser | simulation between events and heap, lookups after the parse; refutations for instructions in the subset and for the second declaration of an entity |
| C62 | `dump.go` and the parser | writing and reading back trees with an internal subset |
| C63 | the whole parser against `Loose.v` | inversion: whatever is accepted without declarations is in the grammar extended by named leniencies, for every handler without entities and for the tree builder |
| C64, C65 | `dump.go` as a sequence of calls of `Write`, each of which may fail (`DumpWrite.v`) | the calls made are the same for every writer and their bytes are the text of `Dump.v`; induction over the calls; refutations, as no error is ever returned |
| C66 | `node.go` replaceNode with the calls of C31, SetTreeDoc, SetNamespace | heap without the replaced subtrees stays a forest; frame lemma `fr`: each call acts alike with and without them |
| C67 | the whole parser and all editing calls | the invariant of C66 holds of every accepted tree (from the no-panic proof for the tree builder); single-call lemmas of C32–C38 need only that invariant; frame lemmas for nodes out of use |
| C68 | the internal subset against `LooseDtd.v` | inversion, for every handler: whatever is accepted is in the grammar, and the events are read off it; refutations for an open group and a dropped entity |
| C69 | the text after the internal subset against `LooseBody.v` | inversion, for every handler; an invariant ties the parser's tables of types and defaults to the declarations reported; refutations for a type declared twice and for colliding names |
| C70 | the serialiser on every heap of C67 | induction over the trees of the forest invariant; results do not depend on nodes out of use nor on more fuel; an invariant of parsing says which declarations have a syntax; refutations for the text textnoenc, content models with a missing part and the type ENTITIES |
| C71 | serialiser, parser and editing calls together | every document of ordinary nodes in a heap of C67 is a tree value of `Xml.v`; then the round trip of C46 |
| C72 | the scanners of declarations and everything that reports | what each scanner gives, and a pass over all functions of the parser with the invariant that all events so far are right; refutations for three forms of element declarations |
| C73 | the environment's order of visiting a map (`permute`) as a parameter | a simulation between two runs of all functions of the parser (as in `Sim`), with start tags related up to the order of their defaulted attributes; the tree builder is shown not to look at these |
| C74 | the trace of callbacks in the parser's state | a measure (callbacks made plus characters left) that no function of the parser increases, by a pass over all functions with the credit of the characters consumed; refutation by a family of documents in the grammar of C56, whose events are counted; upper bound with entities by the same measure with a character worth (L+1)^k at k remaining levels of nesting |
| C75 | `CreateAttribute`, `stringToNodeList` on the heap | frame condition by an invariant: the old cells are unchanged and the new ones are linked upwards; refuted for references to declared entities |

Nothing in the list is "not applicable": each statement is about logic that an
executable model carries.

## 3. Trusted base

* Coq's kernel with `vm_compute`, and `coqchk`, which re-checks every module.
* **Print Assumptions** answers "Closed under the global context" for every
  theorem of the `Properties*.v` files (the commands stand at the end of each
  file): no axiom is used, of the standard library or otherwise.
* The reading of `/repo` by the author; each definition cites its lines.
* Parameters standing for code that is not in `/repo`.  They are fields of the
  record `env` (Scan.v) over which the theorems quantify; `env_ok` lists what
  is assumed of them:
  `unicode.IsLetter`, `IsDigit` and `In(Extender)` agree with ASCII below 128
  and reject U+FFFD; `unicode.ToLower` agrees with ASCII; the cursor answers 0
  or U+FFFD past the end and `Advance` past the end leaves a suffix; the UTF-8
  decoder is Go's (`Utf8.v`); `range` over a map visits a permutation.
  `url.Parse` and the other decoders of `golang.org/x/text` are arbitrary
  functions.  Single theorems assume more and say so in their statement (C63:
  letters and digits are XML characters, nothing is left by an `Advance` past
  the end; C74: a decoder makes at most one character out of a byte).
* Growth of Go slices is an arbitrary function (`Stack.v`).
* `pdebug` is taken as disabled (no effect); `bufferPool` as giving fresh
  buffers; memory and stack as unbounded (an unbounded recursion shows as
  "`Oof` for every fuel").

## 4. What is modelled and what is not

Modelled: `bitset.go`, `stack.go`, `internal/stack`, `encoding`, `sax/sax2.go`,
`parser.go`, `parserctx.go` (all that `Parse` can reach), `tree.go`,
`node.go`, `text.go`, `comment.go`, `element.go`, `attr.go`, `pi.go`,
`reference.go`, `entity.go`, `document.go`, `dtd.go`, `valid.go` (content
models), `dump.go`, the generated `String` methods, and the goroutines of
`cmd/helium-lint`.

Not modelled:

* code that nothing reaches: `parseExternalEntityPrivate` and its like, which
  only return an error or panic; `decodeEntities` with reference substitution
  (needs `replaceEntities`, which nothing sets) with `parseStringEntityRef`;
  `handlePEReference`, which returns before moving the cursor in every state
  that occurs; `pushInput`, `popInput` and the input stack; callbacks of the
  tree builder that the parser never invokes;
* trivial accessors and the per-type methods that only forward to `addChild`,
  `addSibling`, `replaceNode`, `setTreeDoc` (the model dispatches on the node's
  kind instead);
* line and column numbers of errors, and the text of error messages beyond
  what tells one error from another;
* flags and messages of `helium-lint`, and `internal/cliutil`;
* data races: no type of the library claims to be safe for concurrent use.

## 5. How the theorems were tested

`seeded/LOG.jsonl` records edits of the model the way a bug would change the
program, made in a scratch copy, the claim each breaks and the theorems whose
proofs then failed.  Where no theorem failed although a claim had become false
the theorem was tightened; the entry says which.

## 6. Where the code departs from the properties

Each item is a `_refuted` theorem or stands in the note of a claim in
`MANIFEST.json`.

*Accepted although ill-formed* (C63, C17, C18, C08, C23, C24, C25, C29): names
that begin with ':' and attribute names that end with it; a NUL after a name;
attributes not separated by white space; any character in place of '=';
attributes without value; '/>' right after a start tag ends the element;
comments that are cut off by an illegal character or the end of the input;
character references modulo 2^32; illegal characters in CDATA sections;
repeated attributes (by a plain handler); prefixes used outside the element
that declares them; `xmlns` reported as attribute; a botched encoding
declaration before a standalone declaration.  In declarations (C68): no white
space after DOCTYPE; an internal subset after the '>'; no content model; a
missing ')' after `#PCDATA`; enumerations without tokens; entities without
definition; entity literals with '%' or a bad reference, which are dropped.

*Refused although well-formed* (C18, C27–C29, C43, C56): white space before '>'
of an end tag and before '?>' of the XML declaration; a document that begins
with `<?xml-stylesheet`; empty CDATA sections; text that begins with '/>' right
after a start tag; `<xml:r/>`; U+FFFD; UTF-16; external identifiers; content
models with `*` or `+` after a group; `(#PCDATA|a|b)*`.

*Reported otherwise than written* (C10, C12, C24, C58, C59): CR LF in an
attribute value gives two spaces; four-byte signatures of encodings are taken
off the document; namespace declarations reach the following siblings and do
not override outer ones; defaults are reported beside attributes that are
present; types of attributes with prefixed owners are not applied.

*Hangs* (C21): an unterminated CDATA section; local names over 50000
characters; notation declarations, enumerated and notation attribute types;
`<!ATTLIST r>`.

*Panics* (C11, C22, C43): attribute values of only white space with a tokenised
type; unknown entities; content models with '+' after a group, or that begin
with a nested choice, when written; the default namespace declared twice in one
start tag; '%' in the XML declaration; a character
reference in an entity value that is cut off by the closing quote.

*Entities* (C39, C44, C57, C61, C74, C75): the last declaration wins; making an attribute
gives children to the declarations of the entities in its value; a self-referential
entity in an attribute value is expanded without end when the attribute is added to the tree,
and so is one that is declared before another that refers to it, so that a document of 58 bytes
without cyclic entities crashes the tree builder; expansion is a power
of the length of the input, up to the twentieth; parameter entities are not expanded; PUBLIC and SYSTEM
are inverted in entity declarations.

*Tree* (C23, C30, C32, C36, C38, C40, C60): CDATA sections are dropped; an
instruction in the internal subset is put in two lists at once; `AddChild` is
refused after a document; `Replace` leaves the links of the node replaced;
declarations of attributes whose names have a ':' share keys; `SetAttribute`
loses `&lt;` and its like; `SetTreeDoc` stops at a node that has the owner;
attributes have no last child, so that adding to one loses its value;
`GetElementDesc` finds no element by a plain name.

*Serialiser* (C02, C04, C43, C46–C48, C62, C64, C65): errors of the writer are
never returned, and writing goes on after one; instructions are written `<></>`;
both kinds of quotes in a literal lose the double ones; defaults and namespace
names are written unescaped; external identifiers unquoted; attribute types
ENTITIES not at all; the text "textnoenc" panics; control characters become
references that no reader accepts.

*Others*: options share bits (C05); names of encodings misspelt (C13);
helium-lint deadlocks when a file cannot be opened (C49); `Error` of the SAX
dispatcher passes its arguments as one (C14).
