{
 "claims": [
  {
   "property": "C01",
   "status": "proved",
   "theorems": [
    "C01_text_no_raw_markup"
   ],
   "note": "For every byte string, valid UTF-8 or not. The escaping loop of dump.go is modelled rune by rune over a bit-exact UTF-8 decoder."
  },
  {
   "property": "C02",
   "status": "partial",
   "theorems": [
    "C02_text_survives_partial",
    "C02_text_survives_refuted"
   ],
   "note": "REFUTED in full: a C0 control character is written as a numeric reference to an illegal character (witness byte 1). Proved for every byte string without such characters."
  },
  {
   "property": "C03",
   "status": "partial",
   "theorems": [
    "C03_attr_no_raw_markup",
    "C03_attr_survives_partial",
    "C03_attr_survives_refuted"
   ],
   "note": "REFUTED in full for C0 control characters, as C02; proved for every other byte string. The no-raw-markup half holds for all byte strings."
  },
  {
   "property": "C04",
   "status": "partial",
   "theorems": [
    "C04_quoted_literal_partial",
    "C04_entity_literal_partial",
    "C04_quoted_literal_refuted"
   ],
   "note": "REFUTED in full: with both kinds of quote present the double quotes are dropped. Proved for every other identifier, and for entity text free of '&'."
  },
  {
   "property": "C05",
   "status": "partial",
   "theorems": [
    "C05_plain_options_partial",
    "C05_options_refuted",
    "C05_load_options_refuted"
   ],
   "note": "REFUTED: the constants of the second and third group (1<<iota + 10, + 21) and all LoadSubsetOptions overlap. Proved for the ten options that are plain shifts."
  },
  {
   "property": "C06",
   "status": "partial",
   "theorems": [
    "C06_stack_lifo",
    "C06_peek",
    "C06_peek_alias_refuted"
   ],
   "note": "Slices, backing arrays, append growth and reallocation are modelled explicitly; any growth policy. The witness records that the slice answered by Peek aliases the stack."
  },
  {
   "property": "C07",
   "status": "proved",
   "theorems": [
    "C07_unique_stack"
   ],
   "note": "All histories, any key function; also instantiated by the namespace stack."
  },
  {
   "property": "C08",
   "status": "partial",
   "theorems": [
    "C08_content_exact_partial",
    "C08_illegal_refused_partial",
    "C08_malformed_refused_partial",
    "C08_entity_value_exact",
    "C08_wraps_refuted"
   ],
   "note": "Exact in content for every value below 2^31 and in entity values for every value; illegal values and malformed references refused in any element of any document of the grammar. REFUTED beyond: the 32-bit accumulator wraps, so &#4294967361; is delivered as A. Attribute values see C10."
  },
  {
   "property": "C09",
   "status": "partial",
   "theorems": [
    "C09_legal_partial",
    "C09_illegal_refused_partial",
    "C09_cdata_refuted"
   ],
   "note": "For every input, every conforming handler whose entities are ordinary, document type declarations included. REFUTED for CDATA sections (character 1 is delivered)."
  },
  {
   "property": "C10",
   "status": "partial",
   "theorems": [
    "C10_value_partial",
    "C10_crlf_refuted"
   ],
   "note": "For every literal of production AttValue without CR LF. REFUTED: CR LF gives two spaces."
  },
  {
   "property": "C11",
   "status": "partial",
   "theorems": [
    "C11_tokens_partial",
    "C11_blank_panics_refuted",
    "C11_document_panics_refuted"
   ],
   "note": "REFUTED for values of spaces only: the normaliser indexes out of range (panics), also from a document. Proved, with idempotence, for all others."
  },
  {
   "property": "C12",
   "status": "partial",
   "theorems": [
    "C12_detect_sound",
    "C12_detect_complete",
    "C12_signature_unambiguous",
    "C12_eats_document_refuted"
   ],
   "note": "Detection and uniqueness proved for all inputs. REFUTED: the last clause, four-byte UCS-4/UTF-16 patterns swallow the document's first characters."
  },
  {
   "property": "C13",
   "status": "proved",
   "theorems": [
    "C13_listed",
    "C13_unlisted",
    "C13_case",
    "C13_ascii_case"
   ],
   "note": "unicode.ToLower outside ASCII is an arbitrary function."
  },
  {
   "property": "C14",
   "status": "partial",
   "theorems": [
    "C14_dispatch_partial",
    "C14_every_method_callable",
    "C14_error_args_refuted"
   ],
   "note": "REFUTED for Error, whose variadic arguments arrive as one nested slice; proved for the other 24 methods."
  },
  {
   "property": "C15",
   "status": "proved",
   "theorems": [
    "C15_nested"
   ],
   "note": "All inputs, environments and handlers."
  },
  {
   "property": "C16",
   "status": "proved",
   "theorems": [
    "C16_order"
   ],
   "note": "All inputs, environments and handlers; also inside entity expansions."
  },
  {
   "property": "C17",
   "status": "partial",
   "theorems": [
    "C17_one_root_partial",
    "C17_no_root_refused",
    "C17_second_root_refused",
    "C17_cut_refused",
    "C17_junk_after_refuted",
    "C17_open_root_refuted"
   ],
   "note": "Exactly one root in the events of every accepted run; inputs without a root, with a second one, or cut off inside are refused. REFUTED: an unterminated comment after the root and an element left open by '/>' are accepted."
  },
  {
   "property": "C18",
   "status": "partial",
   "theorems": [
    "C18_mismatch_refused_partial",
    "C18_end_tag_partial",
    "C18_missing_end_refuted",
    "C18_blank_end_refuted"
   ],
   "note": "Any document of the grammar cut at any place followed by a wrong end tag is refused; per state, an accepted end tag is that of the open element or '/>'. REFUTED: <r>/> is accepted and </a > refused."
  },
  {
   "property": "C19",
   "status": "proved",
   "theorems": [
    "C19_failure_stops",
    "C19_unspecified_is_nil"
   ],
   "note": "All inputs and handlers; second half as a simulation between any two handlers that differ only in nil versus Unspecified."
  },
  {
   "property": "C20",
   "status": "proved",
   "theorems": [
    "C20_wrapped_once",
    "C20_wrap_idempotent"
   ],
   "note": "Exactly one layer of ErrParseError on every error of every run."
  },
  {
   "property": "C21",
   "status": "partial",
   "theorems": [
    "C21_terminates_partial",
    "C21_hangs_refuted",
    "C21_subset_hangs_refuted",
    "C21_cdata_hangs_refuted",
    "C21_loop",
    "C21_doctype_partial",
    "C21_notation_refuted",
    "C21_late_subset_refuted",
    "C21_attlist_refuted",
    "C21_enumeration_refuted",
    "C21_tree_partial"
   ],
   "note": "C21_terminates_partial: explicit linear bound, for inputs without DOCTYPE whose CDATA sections are closed and whose qualified names have a proper local part; entities may be self-referential. C21_doctype_partial: the same bound for inputs with DOCTYPE, with every kind of declaration, provided the internal subset has no unknown item, no ATTLIST without attributes and no parenthesis in an ATTLIST (enumerations), and the values of the literals meet the conditions too. C21_tree_partial: the tree builder is one of the handlers, an overflow of the stack (C44) counting as a crash. REFUTED outside: inputs on which no fuel suffices, one for each excluded construct."
  },
  {
   "property": "C22",
   "status": "partial",
   "theorems": [
    "C22_doctype_partial",
    "C22_group_plus_refuted",
    "C22_space_reference_refuted",
    "C22_tree_partial",
    "C22_tree_nil_partial",
    "C22_namespace_twice_refuted",
    "C22_no_panic_partial",
    "C22_unknown_entity_refuted",
    "C22_entity_value_refuted",
    "C22_default_value_refuted"
   ],
   "note": "For every handler that does not panic and inputs whose references are to entities the handler knows: inputs without DOCTYPE (C22_no_panic_partial), and inputs with one in which none of four constructs occurs: ')+', a character reference cut off before its ';', an attribute literal of white space and references to space, a blank default value (C22_doctype_partial). For parsing into a tree, where the handler's own panics count: inputs with or without DOCTYPE (the four constructs absent, no processing instruction after an opening bracket that follows DOCTYPE), with at most one default namespace declaration and only predefined entities (C22_tree_partial); without the condition on namespaces the only panic left is at a start tag reported with a missing namespace entry (C22_tree_nil_partial). REFUTED for each excluded construct: C22_unknown_entity_refuted, C22_entity_value_refuted, C22_default_value_refuted, C22_group_plus_refuted, C22_space_reference_refuted, C22_namespace_twice_refuted. Entities that only the document declares are not covered by the positive theorems."
  },
  {
   "property": "C23",
   "status": "partial",
   "theorems": [
    "C23_duplicate_refuted",
    "C23_tree_step",
    "C23_tree_refused_partial"
   ],
   "note": "REFUTED at the SAX level: both attributes are delivered. In the tree: a start event that repeats a name is refused in every state, and no document of the grammar with a repeated attribute, at any depth and distance, parses into a tree (documents without CDATA sections)."
  },
  {
   "property": "C24",
   "status": "partial",
   "theorems": [
    "C24_start_tag_partial",
    "C24_unbound_refused_partial",
    "C24_leak_refuted",
    "C24_override_refuted",
    "C24_default_reported_refuted"
   ],
   "note": "The start event carries the URI of the innermost declaration, for prefixes declared once; unbound prefixes are refused. REFUTED: declarations leak to following siblings and inner ones do not override."
  },
  {
   "property": "C25",
   "status": "partial",
   "theorems": [
    "C25_verbatim",
    "C25_only_comments_partial",
    "C25_hyphens_refused",
    "C25_unterminated_refuted"
   ],
   "note": "Every comment of the grammar exactly; conversely everything read as a terminated comment is one. REFUTED: an unterminated comment is accepted as empty."
  },
  {
   "property": "C26",
   "status": "partial",
   "theorems": [
    "C26_verbatim",
    "C26_verbatim_empty",
    "C26_only_instructions_partial",
    "C26_xml_refused_partial",
    "C26_capital_xml_refuted"
   ],
   "note": "Every instruction exactly and conversely; the target xml refused. REFUTED for XML in capitals. The converse is for cursors that answer RuneError at the end; a NUL after the target is skipped."
  },
  {
   "property": "C27",
   "status": "partial",
   "theorems": [
    "C27_verbatim_partial",
    "C27_empty_cdata_refuted",
    "C27_tree_refuted"
   ],
   "note": "Every non-empty section exactly. REFUTED: the empty section is refused, and the tree builder drops the text of all."
  },
  {
   "property": "C28",
   "status": "partial",
   "theorems": [
    "C28_delivered",
    "C28_only_text",
    "C28_cdend_refused",
    "C28_slash_gt_refuted"
   ],
   "note": "One event per run, in both directions (delivered = source text, and whatever is read is text). REFUTED as to completeness: text starting with '/>' right after a start tag is refused."
  },
  {
   "property": "C29",
   "status": "partial",
   "theorems": [
    "C29_fields_partial",
    "C29_trailing_blank_refuted",
    "C29_stylesheet_refuted",
    "C29_malformed_accepted_refuted"
   ],
   "note": "Every declaration of production XMLDecl without trailing white space. REFUTED: trailing white space refused, xml-stylesheet refused, 'encoding' without value accepted."
  },
  {
   "property": "C30",
   "status": "partial",
   "theorems": [
    "C30_builds_partial",
    "C30_parse_partial",
    "C30_every_document"
   ],
   "note": "Equality with the tree the events stand for, through the links of the heap, for all event sequences of elements, attributes, text, comments and instructions, and from the text of every document of the grammar without CDATA and repeated attributes. Missing: CDATA (dropped, C27), entity references, the events of a DOCTYPE."
  },
  {
   "property": "C31",
   "status": "partial",
   "theorems": [
    "C31_consistent_partial",
    "C31_no_panic",
    "C31_one_list",
    "C31_attribute_refuted",
    "C31_attribute_child_refuted"
   ],
   "note": "For every history of node creation, AddChild, AddSibling, AddContent and SetAttribute with loose nodes. REFUTED for attributes: they have a first but no last child, so adding to one loses its value."
  },
  {
   "property": "C32",
   "status": "partial",
   "theorems": [
    "C32_appends_partial",
    "C32_text_merges",
    "C32_leaf",
    "C32_sibling_appends_partial",
    "C32_sibling_merges",
    "C32_after_document"
   ],
   "note": "Full frame condition over the heap; AddSibling too. Excluded: attributes as parents (C31) and a Document as last child, after which the call fails and changes nothing."
  },
  {
   "property": "C33",
   "status": "partial",
   "theorems": [
    "C33_concat_partial",
    "C33_preorder_exists",
    "C33_add_content_partial",
    "C33_entity_refuted",
    "C33_reference_refuted"
   ],
   "note": "All reachable trees. REFUTED: content added to an entity is not in its Content; a resolved reference also reads the entities declared after its own."
  },
  {
   "property": "C34",
   "status": "partial",
   "theorems": [
    "C34_visits_partial",
    "C34_once",
    "C34_nil",
    "C34_reference_refuted"
   ],
   "note": "All trees and callbacks. REFUTED for resolved references, where Walk continues into the DTD."
  },
  {
   "property": "C35",
   "status": "partial",
   "theorems": [
    "C35_in_place",
    "C35_document_refuted"
   ],
   "note": "All positions. REFUTED for Document nodes, whose Replace panics."
  },
  {
   "property": "C36",
   "status": "partial",
   "theorems": [
    "C36_appends_partial",
    "C36_replaces_partial",
    "C36_two_roots_refuted"
   ],
   "note": "Both cases with full frame. REFUTED: with two top-level elements the second one stays."
  },
  {
   "property": "C37",
   "status": "partial",
   "theorems": [
    "C37_subtree_partial",
    "C37_stops_early_refuted"
   ],
   "note": "Attributes and their values included. REFUTED in general: the call stops at a node that already has the owner, though text below it (made by AddContent) has none."
  },
  {
   "property": "C38",
   "status": "partial",
   "theorems": [
    "C38_adds_partial",
    "C38_duplicate_refused",
    "C38_invalid_utf8_refuted",
    "C38_predefined_refuted"
   ],
   "note": "All valid UTF-8 values in which every '&' begins a character reference (decodes, XmlSpec.v). REFUTED for values that are not UTF-8, which are stored with U+FFFD, and for references to entities: &lt; is silently lost."
  },
  {
   "property": "C39",
   "status": "partial",
   "theorems": [
    "C39_kept_partial",
    "C39_declared",
    "C39_second_wins_refuted"
   ],
   "note": "All histories: an entity is found as declared until its name is declared again. REFUTED: a second declaration of the name replaces the first."
  },
  {
   "property": "C40",
   "status": "partial",
   "theorems": [
    "C40_kept_partial",
    "C40_declared",
    "C40_new",
    "C40_desc_blind",
    "C40_desc_refuted",
    "C40_mixed_blind",
    "C40_mixed_partial",
    "C40_other_name_refuted"
   ],
   "note": "All histories of declarations and tree-building calls: kept, refused on redeclaration with the heap unchanged, found only by its name. REFUTED: GetElementDesc (hence IsMixedElement) never finds an element by a plain name, since the stored key ends in ':'; a lookup prefix with ':' finds another element. What IsMixedElement says for the one spelling it finds (local:prefix) is proved."
  },
  {
   "property": "C41",
   "status": "partial",
   "theorems": [
    "C41_kept_partial",
    "C41_declared_partial",
    "C41_new",
    "C41_collision_refuted"
   ],
   "note": "All histories. Exactness for names and prefixes without ':'. REFUTED with ':' in an attribute name: two different attributes share a key."
  },
  {
   "property": "C42",
   "status": "proved",
   "theorems": [
    "C42_named",
    "C42_accepts",
    "C42_copy"
   ],
   "note": "All particles and models. Independence of the copy (no shared memory) is not expressible, since models are values here."
  },
  {
   "property": "C43",
   "status": "partial",
   "theorems": [
    "C43_denotes_partial",
    "C43_star_refuted",
    "C43_first_group_refuted",
    "C43_optional_refuted",
    "C43_mixed_refuted"
   ],
   "note": "All declarations EMPTY, ANY, (#PCDATA), (#PCDATA)*, (#PCDATA|name)* and groups of any size nested up to 128 levels, with any blanks: the stored model admits exactly the sequences of the text, and is written as a text that reads back as the same model. REFUTED: groups with * or + are refused (so (a*), written (a)*, cannot be read back), a group starting with a group loses it, (a*)? is read as a?, mixed models are written with blanks that are refused and may have one name only."
  },
  {
   "property": "C44",
   "status": "partial",
   "theorems": [
    "C44_attribute_refuted",
    "C44_innocent_refuted",
    "C44_undeclared_partial",
    "C44_set_partial",
    "C44_self_reference_partial",
    "C44_expansion_terminates_partial",
    "C44_document_refuted"
   ],
   "note": "Entity references in content: expansion ends for all entity tables, with an error beyond 40 levels. REFUTED in attribute values: with an entity that refers to itself, setting an attribute (also by the tree builder) recurses without end (C44_attribute_refuted); so it does without any such entity, when an entity is declared before one that refers to it, since a reference takes the following declarations for its content (C44_innocent_refuted); a document of 58 bytes without cyclic entities therefore crashes the tree builder at every depth (C44_document_refuted). Proved where no entity is declared: making an attribute ends for every value within one step for each character, without panic (C44_undeclared_partial), and so does setting one (C44_set_partial)."
  },
  {
   "property": "C45",
   "status": "partial",
   "theorems": [
    "C45_balanced_partial",
    "C45_textnoenc_refuted"
   ],
   "note": "All trees of elements, attributes, texts, comments and references, any texts and values. REFUTED: a text that is textnoenc makes the serialiser panic."
  },
  {
   "property": "C46",
   "status": "partial",
   "theorems": [
    "C46_round_trip_partial",
    "C46_textnoenc_refuted"
   ],
   "note": "All documents of elements, attributes, texts, comments and namespaces, any depth and size, any legal characters, with header. REFUTED for the text textnoenc. Excluded: documents of which the parser loses namespaces (C24), comments with CR LF, processing instructions (C48)."
  },
  {
   "property": "C47",
   "status": "partial",
   "theorems": [
    "C47_stable_partial",
    "C47_empty_text_refuted"
   ],
   "note": "Same class, without empty texts. REFUTED: an empty text as only child is written <r></r> and then <r/>."
  },
  {
   "property": "C48",
   "status": "partial",
   "theorems": [
    "C48_node_partial",
    "C48_pi_refuted",
    "C48_entities_refuted",
    "C48_external_entity_refuted",
    "C48_doctype_refuted",
    "C48_subset_comment_refuted"
   ],
   "note": "Elements, attributes, texts and comments for all contents. REFUTED for processing instructions, attribute declarations of type ENTITIES, external entities, external parameter entities, DOCTYPE identifiers and comments inside the internal subset."
  },
  {
   "property": "C49",
   "status": "partial",
   "theorems": [
    "C49_runs_finite_partial",
    "C49_outcome_partial",
    "C49_complete_run_exists",
    "C49_deadlock_refuted"
   ],
   "note": "REFUTED: if a file cannot be opened, the reader blocks on errCh and the main loop on inputCh (in Go the runtime then aborts with the all-goroutines-asleep error instead of reporting the file). Otherwise every schedule is finite and ends with the expected output and status. Parse itself is abstracted to succeed or fail."
  },
  {
   "property": "C50",
   "status": "partial",
   "theorems": [
    "C50_name_maximal_partial",
    "C50_class",
    "C50_nul_skipped_refuted"
   ],
   "note": "Maximality and the classes of characters. REFUTED: a NUL after the name is skipped."
  },
  {
   "property": "C51",
   "status": "proved",
   "theorems": [
    "C51_split"
   ],
   "note": "For every prefix and local part of the grammar."
  },
  {
   "property": "C52",
   "status": "proved",
   "theorems": [
    "C52_header",
    "C52_header_reads_back"
   ],
   "note": "All versions, encodings and standalone values; the header is read back as the declaration it is."
  },
  {
   "property": "C53",
   "status": "proved",
   "theorems": [
    "C53_blank_run"
   ],
   "note": "All states and handlers; the rule (mixed content declaration, what follows) is the small function ignorable."
  },
  {
   "property": "C54",
   "status": "proved",
   "theorems": [
    "C54_named",
    "C54_distinct",
    "C54_other",
    "C54_never_fails",
    "C54_parser_state_named",
    "C54_parser_state_other"
   ],
   "note": "Both generated String methods, over all integers (64-bit wrap-around of i-1 not modelled)."
  },
  {
   "property": "C55",
   "status": "partial",
   "theorems": [
    "C55_document_events_partial",
    "C55_ill_formed_refused_partial"
   ],
   "note": "Grammar of XML without document type declarations and without the refuted corner cases; all environments and accepting handlers."
  },
  {
   "property": "C56",
   "status": "partial",
   "theorems": [
    "C56_reported_partial",
    "C56_enumeration_refuted",
    "C56_notation_refuted",
    "C56_external_refuted",
    "C56_parameter_refuted"
   ],
   "note": "REFUTED for enumerated types and notations (the parser never returns), external identifiers (refused) and parameter entity references (no effect). Proved for the grammar of Doctype.v: every environment, every handler that accepts everything and remembers entities, with or without XML declaration and byte order mark."
  },
  {
   "property": "C57",
   "status": "partial",
   "theorems": [
    "C57_included_partial",
    "C57_tree_refuted",
    "C57_prefix_refuted"
   ],
   "note": "REFUTED for the tree builder with text entities and for prefixes of the context. Proved for event consumers; namespaces of the replacement text are its own, nesting at most 20."
  },
  {
   "property": "C58",
   "status": "partial",
   "theorems": [
    "C58_supplied_partial",
    "C58_specified_refuted",
    "C58_empty_refuted",
    "C58_tree_refuted"
   ],
   "note": "REFUTED: defaults are also reported for attributes that are present, empty defaults never, and the tree gets none. Proved: elements without the attribute get each non-empty default once."
  },
  {
   "property": "C59",
   "status": "partial",
   "theorems": [
    "C59_normalised_partial",
    "C59_prefix_refuted",
    "C59_entity_refuted"
   ],
   "note": "REFUTED for elements with a prefix and inside entity texts. Proved for unprefixed names outside entities: normalised iff the declared type is not CDATA."
  },
  {
   "property": "C60",
   "status": "partial",
   "theorems": [
    "C60_nodes_partial",
    "C60_pi_refuted",
    "C60_reference_refuted",
    "C60_attribute_twice_refuted",
    "C60_element_twice_refuted"
   ],
   "note": "All documents of the grammar with declarations, through the links of the heap, under a parser with a tree builder from source text to tree. REFUTED: an instruction in the subset is put in the subset and in the document, and the sibling lists run together; a document that refers to a declared entity with text is refused, since the replacement text is parsed with no current element (C60_reference_refuted); a document that declares an attribute or an element type twice is refused, although the first declaration of an attribute should count (C60_attribute_twice_refuted, C60_element_twice_refuted)."
  },
  {
   "property": "C61",
   "status": "partial",
   "theorems": [
    "C61_answers_partial",
    "C61_twice_refuted"
   ],
   "note": "GetEntity, GetParameterEntity, LookupElement and LookupAttribute for all declarations of such documents. REFUTED: of two declarations of one entity the second is found, where the first binds. See C40 for GetElementDesc."
  },
  {
   "property": "C62",
   "status": "partial",
   "theorems": [
    "C62_declared_partial",
    "C62_entities_refuted",
    "C62_default_refuted"
   ],
   "note": "For every heap that holds a document with an internal subset: what is written is read as the same tree (adjacent texts merged) with declarations that stand for the same. REFUTED: attributes of type ENTITIES cannot be written, and a default with an escaped '<' is written unescaped and then not read. Missing: the content models that C43 refutes, comments in the subset, entity references in the content, attributes that C58 and C59 get wrong."
  },
  {
   "property": "C63",
   "status": "partial",
   "theorems": [
    "C63_accepted_partial",
    "C63_tree_partial",
    "C63_strict",
    "C63_well_formed_refuted"
   ],
   "note": "For every input without document type declaration: what is accepted is in a grammar written independently of the parser, which is the one of well-formed documents (C55) extended by seventeen named leniencies, and the events are the ones it gives; without leniencies it is exactly well-formedness apart from repeated attributes (C23). Holds of the tree builder too. REFUTED as stated: <:/> is accepted. Documents with declarations: C68, C69. Missing: reads past the scanner's window."
  },
  {
   "property": "C64",
   "status": "partial",
   "theorems": [
    "C64_ignored",
    "C64_node_ignored",
    "C64_reported_refuted",
    "C64_whole_partial",
    "C64_node_whole_partial",
    "C64_string",
    "C64_plain"
   ],
   "note": "REFUTED as stated: C64_ignored/C64_node_ignored prove for every tree and every two writers that what XML returns is the same, so no write error is ever reported; C64_reported_refuted is a tree and a writer that takes nothing, with result nil. Proved instead (C64_whole_partial, C64_node_whole_partial): if no call of Write failed, exactly the text was taken; C64_string for XMLString. C64_plain: the side condition plain_values holds of every tree of History.v."
  },
  {
   "property": "C65",
   "status": "partial",
   "theorems": [
    "C65_prefix_partial",
    "C65_node_prefix_partial",
    "C65_prefix_refuted"
   ],
   "note": "Proved (C65_prefix_partial, C65_node_prefix_partial) for writers that take nothing any more once they have failed. REFUTED for others: C65_prefix_refuted is a writer that fails once and then works; the serialiser goes on after the failed write and the text has a hole."
  },
  {
   "property": "C66",
   "status": "partial",
   "theorems": [
    "C66_consistent_partial",
    "C66_no_panic",
    "C66_same",
    "C66_covers",
    "C66_reuse_refuted"
   ],
   "note": "All histories that also contain Replace, SetDocumentElement, SetTreeDoc and SetNamespace: the nodes in use (not replaced, nor below a replaced one) are consistent as in C31, every allowed call ends without panic and does the same as if the replaced nodes did not exist. REFUTED for a replaced node that is used again: attached under its old parent it makes the sibling list a cycle, and Content never ends."
  },
  {
   "property": "C67",
   "status": "partial",
   "theorems": [
    "C67_consistent_partial",
    "C67_no_panic_partial",
    "C67_reference_refuted",
    "C67_appends_partial",
    "C67_merges_partial",
    "C67_sibling_partial",
    "C67_sibling_merges_partial",
    "C67_content_partial",
    "C67_preorder_partial",
    "C67_add_content_partial",
    "C67_walk_partial",
    "C67_replace_partial",
    "C67_root_appends_partial",
    "C67_root_replaces_partial",
    "C67_owner_partial",
    "C67_set_attribute_partial",
    "C67_duplicate_partial"
   ],
   "note": "For heaps that result from nothing or from an accepted input, with or without DOCTYPE, that refers to predefined entities only and has no processing instruction in the declaration (fitting in TreeSafeDoctype.v), by any history of allowed calls (the calls of C66): consistency, no panic, and the effect of each call stated as in C32 to C38 on the nodes in use. REFUTED for documents that refer to a declared entity: the node of the reference has the entity as its child, which is a child of the subset (C67_reference_refuted), and for processing instructions in the declaration (C60). Missing: nodes that were replaced (refuted in C66), and what C31 to C38 leave out (attributes as parents, a Document as child, resolved references)."
  },
  {
   "property": "C68",
   "status": "partial",
   "theorems": [
    "C68_doctype_partial",
    "C68_group_refuted",
    "C68_entity_refuted"
   ],
   "note": "For every accepted input with a declaration and every handler: the declaration is in a grammar written independently of the parser (LooseDtd.v, the productions of XML with leniencies marked), and the events between InternalSubset and ExternalSubset are the ones it prescribes; no declaration is reported elsewhere. REFUTED as stated: a group may be left open, an entity whose literal has a percent sign is not reported. The values of defaults are those of the literals, and content models admit the children the text describes where C43 does. Missing: content models outside C43, reads past the scanner's window. The text after the declaration is C69."
  },
  {
   "property": "C69",
   "status": "partial",
   "theorems": [
    "C69_document_partial",
    "C69_type_refuted",
    "C69_label_refuted"
   ],
   "note": "For every accepted input with a declaration and every handler: the text after the declaration is in a grammar written independently of the parser (LooseBody.v), which reads types and defaults off the reported declarations, and the events are the ones it prescribes; defaults are the first ones declared, all of them if the application can create attributes. REFUTED as stated: of several types declared for an attribute the last counts, and a default is lost if another declaration gives the same text element:attribute. Leniencies are marked in LooseBody.v (an empty default is none, a default is added although the attribute is given, types are looked up by local names). Missing: what is reported of the text of an entity (only that it is balanced), reads past the scanner's window."
  },
  {
   "property": "C70",
   "status": "partial",
   "theorems": [
    "C70_node_partial",
    "C70_document_partial",
    "C70_written_partial",
    "C70_textnoenc_refuted",
    "C70_group_refuted",
    "C70_mixed_refuted",
    "C70_entities_refuted"
   ],
   "note": "For every node of every tree in use of every heap of C67 (accepted inputs with or without declarations, any history of edits): the result does not depend on the fuel, is no panic, and is a text if every declaration below has a syntax (C70_node_partial, C70_document_partial); if no declaration is created by an edit, only attribute declarations of type ENTITIES have none (C70_written_partial). REFUTED as stated: a text textnoenc makes the serialiser panic (C70_textnoenc_refuted), so does a content model with a missing part, which the parser builds for a group that begins with a group (C70_group_refuted, a well-formed document) and for mixed content that is cut off (C70_mixed_refuted); an attribute declaration of type ENTITIES gives an error (C70_entities_refuted). Missing: replaced nodes, nodes of attributes."
  },
  {
   "property": "C71",
   "status": "partial",
   "theorems": [
    "C71_round_trip_partial"
   ],
   "note": "Composition of C67 and C46: every document of ordinary nodes (elements, texts, comments, references, instructions without children) with attributes of at most one text, in every heap of C67, is a document of Xml.v; if its names and characters are legal and it is in the class of C46 (no instructions, no references), what is written is parsed to the same document. Missing: documents with declarations, what C46 leaves out."
  },
  {
   "property": "C72",
   "status": "partial",
   "theorems": [
    "C72_declarations_partial",
    "C72_undefined_refuted",
    "C72_model_refuted",
    "C72_part_refuted"
   ],
   "note": "For every handler and every input, accepted or not, without hypotheses: types of elements, attributes, defaults and entities are among the constants of the interface, a content model comes only with mixed and element content and its parts are of the four kinds. REFUTED beyond that: a declaration without content specification is reported as undefined (C72_undefined_refuted), ((a)) is reported without model (C72_model_refuted), and ((a),b) with a model of which a part is missing (C72_part_refuted)."
  },
  {
   "property": "C73",
   "status": "partial",
   "theorems": [
    "C73_events_partial",
    "C73_tree",
    "C73_events_refuted"
   ],
   "note": "For every input and every two orders, which may differ from loop to loop: the same result and answers, the same events but for the order of the defaulted attributes within one start tag, for every handler that does not act on that order; the tree is equal cell by cell (the tree builder skips defaulted attributes). REFUTED as stated: with two defaults declared for an element the events differ from run to run (C73_events_refuted)."
  },
  {
   "property": "C74",
   "status": "partial",
   "theorems": [
    "C74_plain_partial",
    "C74_accepted_partial",
    "C74_entities_refuted",
    "C74_power_partial",
    "C74_tree_partial"
   ],
   "note": "At most len(input)+3 callbacks: for every input and every outcome with handlers that know no internal general entity, and for every handler if the input is accepted without a report of an entity reference; decoders are assumed to make at most one character of a byte. REFUTED with entities: for every b a document of at most 63b+310 bytes is accepted with at least b^20 callbacks by every handler that remembers declarations (C74_entities_refuted); the only limit is the nesting depth of 20. For all inputs and outcomes, entities included, the number is at most a polynomial of degree 21 in the length of the input, (L+1)^20*(len+3) with L >= 16*len a bound for the replacement texts, for every handler that knows only entities as short as it was told of (C74_power_partial); the tree builder is one, so that it holds of building a tree from every input (C74_tree_partial)."
  },
  {
   "property": "C75",
   "status": "partial",
   "theorems": [
    "C75_frame_partial",
    "C75_entity_refuted"
   ],
   "note": "For every heap in which no entity is found in the document, every name and value, when the call succeeds: the attribute is new and every old node is unchanged. REFUTED with declared entities: a reference in the value gives the entity's declaration children, which are then seen in the DTD. Missing: calls that fail, and documents whose entities are declared but not referred to."
  }
 ]
}