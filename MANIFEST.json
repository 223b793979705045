{
 "claims": [
  {
   "property": "C01",
   "status": "partial",
   "theorems": [
    "C01_equals_reflexive",
    "C01_equals_transitive",
    "C01_equals_symmetric_partial",
    "C01_equals_symmetric_refuted",
    "C01_equals_mixed_order_refuted"
   ],
   "note": "Reflexivity for every object and transitivity for all well-formed objects are proved. Symmetry is false with repeated operands (EquivalentClasses(A A B) vs (A B C)) and for an unordered vector against an ordered one: _refuted. Symmetry is proved for duplicate-free objects (_partial)."
  },
  {
   "property": "C02",
   "status": "partial",
   "theorems": [
    "C02_equal_objects_hash_equally_partial",
    "C02_equal_objects_hash_equally_refuted"
   ],
   "note": "False with repeated operands: EquivalentClasses(A A B) equals (A B B) both ways but the XOR hash differs (_refuted). Proved for duplicate-free well-formed objects, for every hash function (_partial)."
  },
  {
   "property": "C03",
   "status": "partial",
   "theorems": [
    "C03_equality_is_structural_partial",
    "C03_equality_is_structural_refuted",
    "C03_structural_equivalence"
   ],
   "note": "False in both directions with repeated operands (_refuted); proved for duplicate-free well-formed objects (_partial)."
  },
  {
   "property": "C04",
   "status": "proved",
   "theorems": [
    "C04_iteration_visits_the_signature",
    "C04_every_object_has_one_signature"
   ],
   "note": "All well-formed objects (every construct category); the occurrence sequence exists and is unique."
  },
  {
   "property": "C05",
   "status": "partial",
   "theorems": [
    "C05_iteration_stops_on_request",
    "C05_table_iteration_refuted",
    "C05_table_iteration_partial"
   ],
   "note": "Proved for all objects but tables; for tables the calls made are proved right (_partial), but for tables the stop code raised on a value is replaced by CONTINUE, so has_primitive answers false (_refuted)."
  },
  {
   "property": "C06",
   "status": "partial",
   "theorems": [
    "C06_has_primitive",
    "C06_has_primitive_string_refuted",
    "C06_axiom_has_primitive",
    "C06_axiom_has_primitive_at"
   ],
   "note": "Proved for all well-formed objects, and for axioms at any position set. Undefined behaviour on interned strings (_refuted); wrong on tables (C05_table_iteration_refuted)."
  },
  {
   "property": "C07",
   "status": "proved",
   "theorems": [
    "C07_axiom_equals_with_annotations",
    "C07_axiom_equals_without_annotations",
    "C07_axiom_equals_structural"
   ],
   "note": "For all axioms; the structural reading assumes duplicate-free operands as in C03."
  },
  {
   "property": "C08",
   "status": "partial",
   "theorems": [
    "C08_table_equality_partial",
    "C08_table_equality_refuted",
    "C08_table_null_value_refuted"
   ],
   "note": "False when the two tables share a value object (loop returns true at the first pointer-equal value) and undefined when a NULL value meets a non-NULL one (_refuted). Proved for tables with disjoint non-NULL values (_partial)."
  },
  {
   "property": "C09",
   "status": "proved",
   "theorems": [
    "C09_iterate_operands",
    "C09_has_operand_primitive",
    "C09_has_operand",
    "C09_has_operand_with_iri"
   ],
   "note": "All axioms, all position sets; order and multiplicity included in operand_sequence."
  },
  {
   "property": "C10",
   "status": "partial",
   "theorems": [
    "C10_start",
    "C10_safe_partial",
    "C10_referenced_alive_partial",
    "C10_counts_partial",
    "C10_no_leak_partial",
    "C10_end_partial",
    "C10_limit_refuted",
    "C10_cycle_refuted",
    "C10_annotation_cycle_refuted",
    "C10_same_iri_refuted",
    "C10_equal_axiom_refuted",
    "C10_equal_annotation_refuted",
    "C10_stale_primitive_refuted"
   ],
   "note": "Proved for every history of the 34 modelled calls (constructors, retain, release, interning, vectors, equality, and creating and editing ontologies) that obeys the ownership rule, puts no object inside itself, stays below the documented reference limit and meets the conditions in SpecHeap.allowed: no error, exact counts, nothing usable freed or changed except the object edited, no leak, and an empty heap after cowl_deinit. Each condition is needed: seven refutations with real histories (count wraps; vector or annotation cycle leaks; setting the same IRI; removing an equal axiom or annotation; stale keys of an index). Missing: tables, prefix maps, readers, writers, removal from client vectors, allocation failure."
  },
  {
   "property": "C11",
   "status": "partial",
   "theorems": [
    "C11_iri_unique_partial",
    "C11_entity_unique_partial",
    "C11_anon_unique_partial",
    "C11_string_unique_partial",
    "C11_iri_same_partial",
    "C11_iri_text_same_partial",
    "C11_entity_same_partial",
    "C11_entity_text_same_partial",
    "C11_anon_same_partial",
    "C11_anon_id_same_partial",
    "C11_string_same_partial",
    "C11_intern_same_partial"
   ],
   "note": "Uniqueness of IRIs, entities, anonymous individuals and interned strings in every history of the 34 modelled calls, including editing ontologies, and every request for a live key returns it. Missing: calls on tables, prefix maps, readers and writers are not in the histories."
  },
  {
   "property": "C12",
   "status": "proved",
   "theorems": [
    "C12_header_fields_are_independent",
    "C12_one_reference_too_many",
    "C12_every_type_fits"
   ],
   "note": "Both header layouts, every history within the documented limit; the limit is shown to be sharp."
  },
  {
   "property": "C13",
   "status": "partial",
   "theorems": [
    "C13_ontology_partial",
    "C13_vector_remove",
    "C13_vector_partial",
    "C13_ontology_refuted",
    "C13_vector_refuted",
    "C13_self_assignment_refuted"
   ],
   "note": "Proved for all histories whose removals name the stored objects themselves, and for vectors. Refuted for equal copies (the argument is released, not the stored element) and for re-setting the same ontology IRI (released before retained)."
  },
  {
   "property": "C14",
   "status": "proved",
   "theorems": [
    "C14_iri_from_string_canonical",
    "C14_canonical_split_unique"
   ],
   "note": "All byte strings; the split is unique. ustring_size counting the terminator is an assumption about ulib."
  },
  {
   "property": "C15",
   "status": "proved",
   "theorems": [
    "C15_iri_parts_text",
    "C15_iri_parts_of_iri"
   ],
   "note": "All pairs of byte strings."
  },
  {
   "property": "C16",
   "status": "partial",
   "theorems": [
    "C16_same_text_same_iri_refuted",
    "C16_same_text_same_iri_partial"
   ],
   "note": "False: cowl_iri(\"http://x/a\",\"1b\") is split as http://x/a1|b, the same text parsed as http://x/|a1b, hence two objects (_refuted). The exact condition for agreement is proved (_partial)."
  },
  {
   "property": "C17",
   "status": "proved",
   "theorems": [
    "C17_has_iri_string"
   ],
   "note": "All IRIs and strings."
  },
  {
   "property": "C18",
   "status": "proved",
   "theorems": [
    "C18_plain_literal",
    "C18_typed_literal",
    "C18_literal_with_datatype",
    "C18_tagged_literal",
    "C18_empty_tag",
    "C18_literal_equality"
   ],
   "note": "All constructors except the rdf:PlainLiteral/rdf:langString path, which is C19; equality covers every constructible literal."
  },
  {
   "property": "C19",
   "status": "partial",
   "theorems": [
    "C19_plain_literal_crash_refuted",
    "C19_lang_datatype_outcome_partial"
   ],
   "note": "False: a value without a tag is a NULL dereference (_refuted). Proved: it splits at the last @ exactly when a non-empty tag follows, and crashes otherwise (_partial)."
  },
  {
   "property": "C20",
   "status": "proved",
   "theorems": [
    "C20_prefix_map_is_finite_map"
   ],
   "note": "All histories, all visiting orders, return codes included; for clients that keep their strings alive (C51 covers the others)."
  },
  {
   "property": "C21",
   "status": "partial",
   "theorems": [
    "C21_reverse_lookup_refuted",
    "C21_reverse_lookup_unbound_refuted",
    "C21_reverse_lookup_partial"
   ],
   "note": "False after overwriting a binding: the reverse table keeps the old entry (_refuted, two forms). Proved for histories that rebind prefixes only before the first look-up by namespace or removal (_partial)."
  },
  {
   "property": "C22",
   "status": "partial",
   "theorems": [
    "C22_short_iri_expansion",
    "C22_out_of_bounds_refuted",
    "C22_no_colon_partial"
   ],
   "note": "Expansion proved for every text with a colon. A text without colon equal to a bound prefix (e.g. \"owl\") underflows the remainder length (_refuted); exact condition proved (_partial)."
  },
  {
   "property": "C23",
   "status": "proved",
   "theorems": [
    "C23_reserved_prefixes_pinned"
   ],
   "note": "All histories."
  },
  {
   "property": "C24",
   "status": "partial",
   "theorems": [
    "C24_contents_partial",
    "C24_contents_refuted",
    "C24_counts_and_types"
   ],
   "note": "Counts, type queries and iteration agree with each other in every reachable state. Contents equal the history for supported edits; refuted for removal through an equal copy. Counts are modulo 2^w."
  },
  {
   "property": "C25",
   "status": "partial",
   "theorems": [
    "C25_axioms_for_primitive",
    "C25_each_once_partial",
    "C25_each_once_refuted"
   ],
   "note": "Exact set of axioms (an entity stands for its IRI too) and exact count of deliveries in every reachable state; each axiom once if it mentions the primitive once; refuted otherwise."
  },
  {
   "property": "C26",
   "status": "proved",
   "theorems": [
    "C26_has_axiom"
   ],
   "note": "Every reachable state, every axiom, whichever index is scanned."
  },
  {
   "property": "C27",
   "status": "partial",
   "theorems": [
    "C27_result",
    "C27_remove_axiom_partial",
    "C27_remove_axiom_refuted"
   ],
   "note": "The result is right for every axiom; the effect is right for stored objects and for axioms without an equal one; refuted for equal copies."
  },
  {
   "property": "C28",
   "status": "partial",
   "theorems": [
    "C28_filter_up_to_iri",
    "C28_filter_partial",
    "C28_types_only_refuted",
    "C28_unrelated_refuted",
    "C28_twice_refuted"
   ],
   "note": "No omissions and soundness up to IRIs for all filters with a primitive; exact when no primitive is repeated and no IRI stands alone; refuted for filters without primitives, repeated primitives and lone IRIs."
  },
  {
   "property": "C29",
   "status": "partial",
   "theorems": [
    "C29_sound",
    "C29_remove_matching_partial",
    "C29_remove_matching_refuted"
   ],
   "note": "Sound whenever it returns; exact for filters with primitives not repeated in selected axioms; refuted for filters without primitives; undefined behaviour for repeated primitives."
  },
  {
   "property": "C30",
   "status": "partial",
   "theorems": [
    "C30_has_primitive_history",
    "C30_iterate_history",
    "C30_has_primitive_partial",
    "C30_iterate_partial",
    "C30_signature_refuted"
   ],
   "note": "Exact characterisation for every history (everything ever added); equals the current contents when nothing is removed; refuted after removals, with a read of a freed key."
  },
  {
   "property": "C31",
   "status": "partial",
   "theorems": [
    "C31_related_partial",
    "C31_related_refuted"
   ],
   "note": "Exact operand sequences for every reachable state; once per axiom if it mentions the primitive once; refuted otherwise."
  },
  {
   "property": "C32",
   "status": "proved",
   "theorems": [
    "C32_lists",
    "C32_results"
   ],
   "note": "Every history, annotations and imports, with results of removals."
  },
  {
   "property": "C33",
   "status": "partial",
   "theorems": [
    "C33_handler_receives_contents",
    "C33_add_partial",
    "C33_single_remove",
    "C33_remove_refuted",
    "C33_remove_axioms_refuted",
    "C33_remove_does_nothing"
   ],
   "note": "ADD copies everything, for all pairs of reachable ontologies; any handler receives exactly the contents until it stops. REMOVE is refuted: it stops at the first prefix or the first successful removal."
  },
  {
   "property": "C34",
   "status": "partial",
   "theorems": [
    "C34_vector_iterator_collects",
    "C34_set_iterator_collects_partial",
    "C34_set_iterator_retains",
    "C34_count_iterator_counts",
    "C34_set_iterator_collects_refuted"
   ],
   "note": "Vector and counting iterators proved for any delivering procedure; the set iterator retains exactly what it holds. Set iterator stops at the first repeated element (_refuted); proved for sequences without repetitions (_partial)."
  },
  {
   "property": "C35",
   "status": "partial",
   "theorems": [
    "C35_typed_literal_partial",
    "C35_integer_value",
    "C35_lang_literal",
    "C35_sign_refuted",
    "C35_fraction_refuted",
    "C35_whole_part_refuted",
    "C35_notation_refuted",
    "C35_plain_literal_refuted"
   ],
   "note": "Exact characterisation of the typed literals that survive, for every datatype but the two language ones; integers keep their value in any notation; tagged literals survive. Refuted for other decimal notations and for typed rdf:PlainLiteral."
  },
  {
   "property": "C36",
   "status": "partial",
   "theorems": [
    "C36_axiom_roundtrip_partial",
    "C36_cardinality_refuted"
   ],
   "note": "Every axiom whose literals survive (C35) and whose cardinalities leave one bit free, any nesting, any following bytes, any handler. Refuted for cardinalities of 2^31 and more."
  },
  {
   "property": "C37",
   "status": "partial",
   "theorems": [
    "C37_round_trip_partial",
    "C37_version_refuted",
    "C37_stale_refuted"
   ],
   "note": "For every history of edits and every hash order, writing and reading back gives the same IRI, version, imports, annotations and axioms, provided contents are storable and portable (C35, C40), a version comes with an IRI, and everything the history added is still alive; the last two restrictions are refuted."
  },
  {
   "property": "C38",
   "status": "partial",
   "theorems": [
    "C38_stream_partial",
    "C38_order_refuted",
    "C38_version_refuted",
    "C38_prefixes_refuted",
    "C38_headless_refuted"
   ],
   "note": "Every stream of a header, axioms, mode changes, resets and index sizes with portable contents is read back as the same changes, in order for each component. Refuted: order between axiom types, versions without IRI, several prefixes per namespace, calls before the header."
  },
  {
   "property": "C39",
   "status": "partial",
   "theorems": [
    "C39_reader_partial",
    "C39_null_refuted"
   ],
   "note": "Every byte string: reading ends, everything delivered is well formed, and NULL can only be dereferenced in six named functions. Refuted: each of the six is reached by a short input."
  },
  {
   "property": "C40",
   "status": "partial",
   "theorems": [
    "C40_tables_partial",
    "C40_split_refuted",
    "C40_anon_refuted"
   ],
   "note": "Writer numbers equal reader positions at every point of every such stream. Refuted for IRIs that cowl_iri splits elsewhere and for writers that do not send anonymous ids."
  },
  {
   "property": "C41",
   "status": "proved",
   "theorems": [
    "C41_reset",
    "C41_change"
   ],
   "note": "For every stream as in C38, followed by any reset, add or remove frame; what they do to later elements is C38."
  },
  {
   "property": "C42",
   "status": "partial",
   "theorems": [
    "C42_value_partial",
    "C42_nul_refuted"
   ],
   "note": "Every literal object and every value without NUL; the token after the string is C44 and C45. Values are cut at a NUL (_refuted)."
  },
  {
   "property": "C43",
   "status": "partial",
   "theorems": [
    "C43_iri_partial",
    "C43_dot_refuted",
    "C43_stale_refuted",
    "C43_blank_refuted"
   ],
   "note": "Proved for legal names and prefix maps without rebinding. Refuted for remainders ending in a full stop, IRIs with blanks, and rebound prefixes."
  },
  {
   "property": "C44",
   "status": "partial",
   "theorems": [
    "C44_object_partial",
    "C44_one_refuted",
    "C44_inverse_refuted"
   ],
   "note": "Proved for all expressible objects of every sort, at the level of bytes. Refuted for n-ary constructs with one operand and inverse sub-properties."
  },
  {
   "property": "C45",
   "status": "partial",
   "theorems": [
    "C45_tokens_partial"
   ],
   "note": "Proved for all expressible documents against a separate token specification. Refuted by the examples of C43."
  },
  {
   "property": "C46",
   "status": "partial",
   "theorems": [
    "C46_document_partial",
    "C46_version_refuted"
   ],
   "note": "Proved for whole documents (prefixes, header, axioms). Refuted for a version without an IRI."
  },
  {
   "property": "C47",
   "status": "partial",
   "theorems": [
    "C47_partial",
    "C47_twice_refuted",
    "C47_default_refuted"
   ],
   "note": "Proved for declarations that contradict neither each other nor the default map. Refuted for a prefix declared twice and for one of the default map."
  },
  {
   "property": "C48",
   "status": "proved",
   "theorems": [
    "C48_uint_to_string",
    "C48_uint_roundtrip"
   ],
   "note": "All widths. The buffer is assumed large enough."
  },
  {
   "property": "C49",
   "status": "proved",
   "theorems": [
    "C49_iteration_visits_the_set",
    "C49_universal_set",
    "C49_set_operations",
    "C49_all_and_none"
   ],
   "note": "All flag sets; ubit_first_set of the empty set is assumed not to be below COWL_AT_COUNT."
  },
  {
   "property": "C50",
   "status": "proved",
   "theorems": [
    "C50_kind_predicates",
    "C50_type_getters",
    "C50_entity_types",
    "C50_primitive_types",
    "C50_annot_value_types"
   ],
   "note": "All object types; getters of every enum-parameterised constructor family."
  },
  {
   "property": "C51",
   "status": "partial",
   "theorems": [
    "C51_remove_ns_refuted",
    "C51_overwrite_refuted",
    "C51_same_binding_twice_refuted",
    "C51_no_use_after_free_partial"
   ],
   "note": "False: remove_ns after a reverse look-up, reverse look-up after overwriting, and re-adding a binding with overwrite all use freed strings (_refuted x3). Proved for histories without those patterns (_partial)."
  },
  {
   "property": "C52",
   "status": "partial",
   "theorems": [
    "C52_numeral_value_refuted",
    "C52_error_distinguishable_refuted",
    "C52_numeral_value_partial",
    "C52_invalid_numeral"
   ],
   "note": "False: \"4294967296\" parses as 0 and 4294967295 is also the error value (_refuted). Proved modulo 2^w (_partial), and that every non-numeral returns the error value."
  },
  {
   "property": "C53",
   "status": "proved",
   "theorems": [
    "C53_reserved_iris",
    "C53_reserved_objects"
   ],
   "note": "All strings and all objects."
  },
  {
   "property": "C55",
   "status": "partial",
   "theorems": [
    "C55_handler_error_partial",
    "C55_input_error_refuted"
   ],
   "note": "Proved for errors of the handler, every input. Refuted for errors of the input: SubObjectPropertyOf with cut-off annotations is delivered after the error."
  },
  {
   "property": "C56",
   "status": "partial",
   "theorems": [
    "C56_round_trip_partial"
   ],
   "note": "Proved for all reachable ontologies whose contents a text can express."
  },
  {
   "property": "C57",
   "status": "partial",
   "theorems": [
    "C57_partial",
    "C57_refuted"
   ],
   "note": "Termination, return codes and the only source of undefined behaviour, for all byte strings. Refuted for rdf:PlainLiteral without a language tag."
  },
  {
   "property": "C58",
   "status": "partial",
   "theorems": [
    "C58_complete_partial",
    "C58_cut",
    "C58_nul_refuted",
    "C58_high_refuted"
   ],
   "note": "Cutting a text is proved for all texts. That nothing follows an accepted document is refuted for zero bytes and, with signed char, bytes from 128 on; nothing else can follow."
  },
  {
   "property": "C60",
   "status": "proved",
   "theorems": [
    "C60_order"
   ],
   "note": "For all byte strings and handlers."
  },
  {
   "property": "C61",
   "status": "partial",
   "theorems": [
    "C61_stop_partial",
    "C61_again_refuted"
   ],
   "note": "Proved except for the version delivered after a rejected IRI and the code returned, both refuted."
  },
  {
   "property": "C62",
   "status": "proved",
   "theorems": [
    "C62_into"
   ],
   "note": "For all byte strings. The prefix map of the ontology is the subject of C47."
  },
  {
   "property": "C63",
   "status": "proved",
   "theorems": [
    "C63_parser",
    "C63_tokens",
    "C63_unambiguous",
    "C63_document"
   ],
   "note": "For all token sequences and all byte strings. The grammar is over tokens; it has the limits of cowl: at most one IRI per prefix, the first declaration counts. A byte that the parser takes for the end of the text may follow a document (see C58)."
  },
  {
   "property": "C64",
   "status": "proved",
   "theorems": [
    "C64_lexer",
    "C64_exists",
    "C64_unique",
    "C64_document"
   ],
   "note": "For all byte strings. Numbers are taken modulo the width of the integer type (see C52); the scanner that flex generates is assumed to take the longest match and the first rule."
  },
  {
   "property": "C59",
   "status": "partial",
   "theorems": [
    "C59_safe_partial",
    "C59_alive_partial",
    "C59_no_leak_partial",
    "C59_text_partial",
    "C59_dangling_refuted",
    "C59_alive_refuted",
    "C59_text_refuted"
   ],
   "note": "For every history of documents, header and client operations in which no header without prefix map follows one with a map. The excluded case is refuted three ways."
  },
  {
   "property": "C65",
   "status": "partial",
   "theorems": [
    "C65_calls_partial",
    "C65_once",
    "C65_error",
    "C65_whole",
    "C65_unable",
    "C65_piece",
    "C65_stop_refuted"
   ],
   "note": "C65_calls_partial is restricted to writers that answer OK or an error; refuted for a writer that answers COWL_STOP to an axiom. Any answers: C65_once, C65_error. Other kinds of writers: C65_whole, C65_unable; streaming by the client: C65_piece."
  },
  {
   "property": "C66",
   "status": "partial",
   "theorems": [
    "C66_saved_partial",
    "C66_write_file",
    "C66_path_partial",
    "C66_loaded",
    "C66_not_loaded",
    "C66_file",
    "C66_code_refuted"
   ],
   "note": "Arbitrary client readers and writers; C66_loaded, C66_not_loaded and C66_file hold for all codes, the others for codes that are not positive. Opening and closing are outcomes given by ulib."
  },
  {
   "property": "C67",
   "status": "partial",
   "theorems": [
    "C67_balanced_partial",
    "C67_vocabulary",
    "C67_vocabulary_refuted",
    "C67_leak_refuted"
   ],
   "note": "Any sequence of calls, allocation failing only at the first allocation of a call or not at all. Later failures are refuted; C67_vocabulary shows that every failure in a vocabulary crashes."
  },
  {
   "property": "C68",
   "status": "partial",
   "theorems": [
    "C68_reload_partial",
    "C68_dot_refuted",
    "C68_rebind_refuted",
    "C68_nul_refuted",
    "C68_split_refuted",
    "C68_tag_refuted",
    "C68_inverse_refuted"
   ],
   "note": "Proved for every accepted text whose IRIs are split canonically and do not end in a full stop where a prefix applies, with no zero bytes, legal language tags, no inverse sub-property, and declarations that do not contradict the default prefix map. Each of these conditions is shown to be necessary by a refuting text."
  },
  {
   "property": "C54",
   "status": "proved",
   "theorems": [
    "C54_fields",
    "C54_complete",
    "C54_null",
    "C54_annot",
    "C54_cardinality",
    "C54_quantifier",
    "C54_vocabulary",
    "C54_nary",
    "C54_chain",
    "C54_lasting"
   ],
   "note": "All constructors of composites reachable through the public API with heap-level semantics (KConstruct, KNary, KChain); allowed calls are those the headers permit (arguments owned by the client, NULL only where nullable). C54_vocabulary identifies the default fillers. Allocation failure is outside the model."
  },
  {
   "property": "C69",
   "status": "proved",
   "theorems": [
    "C69_bounded",
    "C69_nothing_forgotten"
   ],
   "note": "Bounds for writer and reader after every call (C69_bounded) and no early reset (C69_nothing_forgotten). Preconditions: contents that can be stored (session), index size and primitives per object small in comparison with ulib_uint (modest)."
  },
  {
   "property": "C70",
   "status": "partial",
   "theorems": [
    "C70_cut_partial",
    "C70_accepted",
    "C70_written",
    "C70_bare_refuted",
    "C70_unnoticed_refuted",
    "C70_crash_refuted"
   ],
   "note": "Proved for all byte strings, cuts and handlers: the changes of the part are how those of the whole begin, but for the annotations of a final SubObjectPropertyOf axiom in a rejected part. Refuted: annotations lost, missing end unnoticed, null pointer on a truncated file."
  },
  {
   "property": "C71",
   "status": "proved",
   "theorems": [
    "C71_safe",
    "C71_resolve",
    "C71_found",
    "C71_lasting",
    "C71_same",
    "C71_increasing",
    "C71_end"
   ],
   "note": "Model of cowl_entity.c with COWL_ENTITY_IDS. Counts and identifiers are unbounded numbers; entities only, IRIs are addresses. An emptied hash table is assumed to act as an empty one."
  },
  {
   "property": "C72",
   "status": "partial",
   "theorems": [
    "C72_tokens_partial",
    "C72_read_partial",
    "C72_carriage_return_refuted"
   ],
   "note": "Proved for all token sequences and layouts in which comments end with line feeds. Refuted for comments ended by a carriage return alone, which OWL 2 allows."
  },
  {
   "property": "C73",
   "status": "partial",
   "theorems": [
    "C73_harmless_partial",
    "C73_enough",
    "C73_counts_partial",
    "C73_referenced_alive_partial",
    "C73_no_leak_partial",
    "C73_iri_partial",
    "C73_entity_partial",
    "C73_anon_partial",
    "C73_string_partial",
    "C73_end_partial",
    "C73_anon_refuted",
    "C73_anon_id_refuted",
    "C73_lang_refuted",
    "C73_ordered_refuted",
    "C73_key_refuted",
    "C73_array_refuted"
   ],
   "note": "False as stated: six refutations (anonymous individuals from a text, literals with a language tag, the empty ordered vector, key axioms without one of the vectors dereference NULL; an individual with an empty identifier; the array of n-ary constructors leaks). For all other constructors: proved for every history and every set of failing requests. Missing: requests made by ontologies, tables, prefix maps, readers and writers."
  },
  {
   "property": "C74",
   "status": "partial",
   "theorems": [
    "C74_paste_partial",
    "C74_same_partial",
    "C74_kind_refuted",
    "C74_zero_refuted",
    "C74_stale_refuted",
    "C74_one_refuted"
   ],
   "note": "False as stated: four refutations (entities of different kinds, zero bytes in literals, a prefix of the global map bound twice, n-ary axioms with one operand). Proved: for expressible axioms and a proper global map, pasting the texts and reading gives exactly the axioms; expressible objects of the same sort with the same text are equal. Missing: objects that the syntax cannot express."
  },
  {
   "property": "C75",
   "status": "partial",
   "theorems": [
    "C75_to_protocowl_partial",
    "C75_to_text_partial",
    "C75_number_refuted",
    "C75_split_refuted",
    "C75_cardinality_refuted",
    "C75_one_refuted"
   ],
   "note": "False as stated: four refutations (numbers not in shortest notation, cardinalities from 2^31 on, IRIs that cowl_iri would divide elsewhere, n-ary axioms with one operand). Proved in both directions for all other contents. Missing: contents that are not convertible or not writable."
  },
  {
   "property": "C76",
   "status": "proved",
   "theorems": [
    "C76_call",
    "C76_program",
    "C76_unique_refuted"
   ],
   "note": "For the calls of the heap model (creating, retaining, releasing, comparing and changing objects, vectors and ontologies), for every history and every sequence of calls of a part of a program. The condition that the object is not unique is needed (C76_unique_refuted)"
  },
  {
   "property": "C77",
   "status": "partial",
   "theorems": [
    "C77_safe_partial",
    "C77_nothing_kept_partial",
    "C77_counts_partial",
    "C77_buffer_refuted",
    "C77_tag_refuted"
   ],
   "note": "Every run of the parser, with every grammar rule, action and destructor, over the heap model, with any handler. Assumed: no literal of type rdf:langString or rdf:PlainLiteral without a tag (C77_tag_refuted), no counter overflow, memory does not run out. The buffers of stray quoted strings are lost (C77_buffer_refuted)"
  },
  {
   "property": "C78",
   "status": "partial",
   "theorems": [
    "C78_safe_partial",
    "C78_nothing_kept_partial",
    "C78_counts_partial",
    "C78_null_refuted"
   ],
   "note": "Every run of the ProtocOWL reader, function by function with all retains and releases, over the heap model, with any handler and any failing read. Assumed: the constructors found for C39 are not given NULL (C78_null_refuted), no literal of type rdf:langString or rdf:PlainLiteral without a tag, no counter overflow, memory does not run out"
  },
  {
   "property": "C79",
   "status": "partial",
   "theorems": [
    "C79_functional_partial",
    "C79_protocowl_partial",
    "C79_protocowl_stop_partial",
    "C79_functional_messages",
    "C79_protocowl_messages",
    "C79_refused_refuted",
    "C79_code_refuted",
    "C79_memory_refuted",
    "C79_stream_refuted",
    "C79_stale_refuted",
    "C79_null_refuted",
    "C79_scanner_refuted"
   ],
   "note": "False as stated: seven refutations (changes refused by the handler are returned as errors but not recorded, other code recorded than returned, memory errors with an older Bison, failing streams not recorded by the ProtocOWL reader, messages of earlier readings kept, never NULL, OK without reading if the scanner cannot be allocated). Proved for every history of readings: syntax errors, unknown prefixes and memory errors of the functional reader, all errors but those of the stream for the ProtocOWL reader, and the ownership of messages without restriction."
  },
  {
   "property": "C80",
   "status": "partial",
   "theorems": [
    "C80_shows",
    "C80_empty",
    "C80_same_partial",
    "C80_same_refuted"
   ],
   "note": "Contents and emptiness of the text for all errors; injectivity for messages and names without brackets, refuted otherwise."
  },
  {
   "property": "C81",
   "status": "partial",
   "theorems": [
    "C81_safe_partial",
    "C81_freed_partial",
    "C81_last_partial",
    "C81_end_partial",
    "C81_null_refuted",
    "C81_early_refuted"
   ],
   "note": "All histories in which the defaults are set while the library is initialized and to objects of the right type; for NULL refuted. The free functions do not call the library."
  },
  {
   "property": "C82",
   "status": "proved",
   "theorems": [
    "C82_name",
    "C82_other",
    "C82_apart",
    "C82_unknown"
   ],
   "note": "All texts; the 78 types of the enumeration and all other numbers."
  },
  {
   "property": "C83",
   "status": "partial",
   "theorems": [
    "C83_found_partial",
    "C83_balance_partial",
    "C83_end_partial",
    "C83_order_partial",
    "C83_keys_partial",
    "C83_known_partial",
    "C83_number_ns_partial",
    "C83_number_id_partial",
    "C83_stable_ns_partial",
    "C83_stable_id_partial",
    "C83_view_ns_partial",
    "C83_view_id_partial",
    "C83_view_all_partial",
    "C83_memory_refuted"
   ],
   "note": "All histories in which memory suffices; refuted when it runs out while a prefix is added."
  }
 ]
}
