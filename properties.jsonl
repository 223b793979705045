{"id": "C01", "title": "Structural equality is an equivalence relation", "statement": "cowl_equals, restricted to well-formed objects (strings, IRIs, entities, anonymous individuals, literals, vectors, annotations, expressions, axioms), is reflexive, symmetric and transitive. Expected exception to be settled: unordered operand lists with repeated operands.", "quantifier": "all triples of well-formed objects, of any nesting depth and any operand-list length", "why_tests_cant": "Objects are recursive trees of unbounded depth with unordered operand lists; tests compare a handful of pairs and never the three-way laws over every shape.", "anchors": ["src/cowl_object.c:cowl_equals", "src/cowl_vector.c:cowl_vector_equals", "src/cowl_literal.c:cowl_literal_equals", "src/cowl_string.c:cowl_string_equals"]}
{"id": "C02", "title": "Equal objects hash equally", "statement": "Whenever cowl_equals(a, b) holds, cowl_hash(a) = cowl_hash(b), so hash sets and tables keyed by objects never store two equal objects.", "quantifier": "all pairs of well-formed objects; every pointer-hash and string-hash function ulib could use", "why_tests_cant": "The law relates two recursive functions on all objects; hash collisions hide violations in small tests and operand order/multiplicity is combinatorial.", "anchors": ["src/cowl_object.c:cowl_hash", "src/cowl_object.c:cowl_equals", "src/cowl_vector.c:cowl_vector_hash"]}
{"id": "C03", "title": "Equality is OWL structural equality", "statement": "cowl_equals(a, b) is true exactly when a and b are structurally equivalent in the OWL 2 sense: same construct, same operands with unordered operand lists compared as sets and property chains compared as sequences, same annotations, same cardinality.", "quantifier": "all pairs of well-formed objects whose unordered operand lists contain no repeated (equal) operands", "why_tests_cant": "Needs completeness as well as soundness over every permutation of every operand list at every depth.", "anchors": ["src/cowl_object.c:cowl_equals", "src/cowl_vector.c:cowl_vector_equals_no_order", "src/cowl_vector.c:cowl_vector_equals_order"]}
{"id": "C04", "title": "Primitive iteration visits exactly the signature", "statement": "cowl_iterate_primitives(o, flags, iter) with an iterator that never stops calls the iterator exactly once per occurrence of each primitive (entity, anonymous individual, IRI used as such) in o whose kind is enabled by flags, in left-to-right order, and returns COWL_OK.", "quantifier": "all well-formed objects, all flag sets, all iterator contexts", "why_tests_cant": "There are 2^8 flag sets and unboundedly many object shapes, including implicit fillers and nested annotations.", "anchors": ["src/cowl_object.c:cowl_iterate_primitives", "src/cowl_vector.c:cowl_vector_iterate_primitives", "src/cowl_obj_quant.c:cowl_obj_quant_iterate_primitives", "src/cowl_data_quant.c:cowl_data_quant_iterate_primitives", "src/cowl_literal.c:cowl_literal_iterate_primitives"]}
{"id": "C05", "title": "Iterators can stop any primitive iteration", "statement": "If the iterator returns anything but COWL_CONTINUE at some element, cowl_iterate_primitives makes no further call and returns that very code; the calls made are a prefix of the full sequence.", "quantifier": "all well-formed objects, all flags, all iterator behaviours and contexts (any stateful callback)", "why_tests_cant": "The stopping point and callback state are arbitrary; a single missed should_stop check in one construct is only visible for specific shapes.", "anchors": ["src/cowl_object.c:cowl_iterate_primitives", "src/cowl_vector.c:cowl_vector_iterate_primitives", "src/cowl_ret.c"]}
{"id": "C06", "title": "has_primitive decides occurrence", "statement": "cowl_has_primitive(o, p) is true exactly when p occurs in o.", "quantifier": "all well-formed objects and all primitives", "why_tests_cant": "Equivalence between a recursive search and an occurrence relation on all trees.", "anchors": ["src/cowl_object.c:cowl_has_primitive", "src/cowl_iterator.c:cowl_iterator_contains"]}
{"id": "C07", "title": "Axiom equality with and without annotations", "statement": "cowl_axiom_equals(a, b, annotations=false) is true exactly when the axioms are equal after dropping their own annotations, and with annotations=true it coincides with cowl_equals.", "quantifier": "all pairs of well-formed axioms with any annotations", "why_tests_cant": "Quantifies over all axiom types, nestings and annotation lists.", "anchors": ["src/cowl_axiom.c:cowl_axiom_equals"]}
{"id": "C08", "title": "Table equality compares all entries", "statement": "cowl_table_equals(a, b) is true exactly when the tables have the same keys with equal values.", "quantifier": "all pairs of tables, in every bucket iteration order", "why_tests_cant": "Depends on hash-table iteration order, which a test cannot enumerate.", "anchors": ["src/cowl_table.c:cowl_table_equals"]}
{"id": "C09", "title": "Positional operand queries", "statement": "cowl_axiom_iterate_operands(axiom, position, iter) delivers exactly the operands sitting at the requested positions (n-ary operands flattened), in order, and cowl_axiom_has_operand(axiom, op, position) is true exactly when an operand equal to op is among them.", "quantifier": "all well-formed axioms, all position bit sets, all operands", "why_tests_cant": "37 axiom types x all position masks x unbounded operand lists.", "anchors": ["src/cowl_axiom.c:cowl_axiom_iterate_operands", "src/cowl_axiom.c:cowl_axiom_has_operand", "include/cowl_position.h"]}
{"id": "C10", "title": "Reference counting is memory safe and leak free", "statement": "If a client only uses references it owns and releases each exactly once, then no sequence of constructor, retain, release, interning and ontology editing calls touches a freed object, no object is freed twice, no object is freed while a reference to it exists, and once every reference is released no object is left.", "quantifier": "all finite histories of API calls (constructors of every arity, interned strings/IRIs/entities/anonymous individuals, literals, vectors, ontologies, retain, release) obeying the ownership rule", "why_tests_cant": "Safety over all interleavings of unboundedly many calls on a shared object graph; sanitizers only see the executed histories.", "anchors": ["src/cowl_object.c:cowl_retain", "src/cowl_object.c:cowl_release", "src/cowl_object.c:cowl_get_impl", "src/cowl_string.c:cowl_string_free", "src/cowl_iri.c:cowl_iri_free", "src/cowl_entity.c:cowl_entity_free", "src/cowl_literal.c:cowl_literal_free", "src/cowl_ontology.c:cowl_ontology_free", "src/cowl_ontology.c:cowl_ontology_add_axiom", "src/cowl_ontology.c:cowl_ontology_remove_axiom", "src/cowl_ontology.c:cowl_ontology_set_iri", "src/cowl_vector.c:cowl_vector_remove"]}
{"id": "C11", "title": "Interned objects are unique", "statement": "At any time there is at most one live IRI per (namespace, remainder), one live entity per (type, IRI), one live anonymous individual per identifier and one live interned string per text; requesting the same key again while it is alive returns the same object, so pointer comparison decides equality.", "quantifier": "all finite histories of API calls, including frees and re-creations", "why_tests_cant": "Uniqueness must survive every order of creation, release, free and re-creation.", "anchors": ["src/cowl_string.c:cowl_string_get_intern", "src/cowl_string.c:cowl_string_intern", "src/cowl_iri.c:cowl_iri_unvalidated", "src/cowl_entity.c:cowl_entity_get_impl", "src/cowl_anon_ind.c:cowl_anon_ind"]}
{"id": "C12", "title": "Object header word packs type, flag and count independently", "statement": "Retaining or releasing changes only the reference count, and setting the flag bit changes only the flag, as long as the documented maximum number of references is not exceeded; reading back type, flag and count always gives the last values written.", "quantifier": "all types below 128, both flag values, all counts below the limit, both 32 and 64 bit header layouts, every sequence of operations", "why_tests_cant": "Exhaustive check of a 2^32 / 2^64 state space and all histories; off-by-one in a mask only shows up near the limits.", "anchors": ["src/cowl_object_flags.h", "src/cowl_object_private.h:cowl_incr_ref", "src/cowl_object_private.h:cowl_decr_ref"]}
{"id": "C13", "title": "Removing from a vector or ontology gives back exactly the stored reference", "statement": "Removing an element from an operand vector, or an annotation/import from an ontology, releases precisely the reference that the container held on the removed element, leaving every other reference count unchanged.", "quantifier": "all container contents and all arguments that are equal to (not necessarily the same object as) a stored element", "why_tests_cant": "Requires a pair of structurally equal but distinct objects and inspection of reference counts, for all contents.", "anchors": ["src/cowl_vector.c:cowl_vector_remove", "src/cowl_ontology.c:cowl_ontology_remove_annot", "src/cowl_ontology.c:cowl_ontology_remove_import"]}
{"id": "C14", "title": "IRI splitting is lossless and canonical", "statement": "cowl_iri_from_string(s) yields an IRI whose namespace followed by its remainder is exactly s, whose remainder is the longest suffix of s that is an XML NCName (empty if none); the empty string is rejected.", "quantifier": "all byte strings", "why_tests_cant": "The split point depends on character classes at every position of unbounded strings.", "anchors": ["src/cowl_iri.c:cowl_iri_from_string", "src/cowl_xml_utils.c:cowl_xml_ns_length"]}
{"id": "C15", "title": "Building an IRI from prefix and suffix preserves its text", "statement": "cowl_iri(prefix, suffix) yields an IRI whose full text is prefix followed by suffix, whatever the two parts are.", "quantifier": "all pairs of byte strings", "why_tests_cant": "Three-way re-splitting logic at arbitrary boundaries.", "anchors": ["src/cowl_iri.c:cowl_iri", "src/cowl_xml_utils.c:cowl_xml_ns_length"]}
{"id": "C16", "title": "Same IRI text, same IRI object", "statement": "Two IRIs with the same full text are the same object, no matter through which constructor or split point they were obtained.", "quantifier": "all ways to build an IRI: cowl_iri_from_string and cowl_iri with every split of every text", "why_tests_cant": "Any split point of any string can be used; canonicity must hold for all.", "anchors": ["src/cowl_iri.c:cowl_iri", "src/cowl_iri.c:cowl_iri_from_string", "src/cowl_iri.c:cowl_iri_unvalidated"]}
{"id": "C17", "title": "has_iri_string compares the full text", "statement": "cowl_has_iri_string(o, s) (cowl_iri_has_string) is true exactly when the IRI text of o is s.", "quantifier": "all IRIs and all byte strings", "why_tests_cant": "Combination of length, prefix and suffix tests must be equivalent to equality of concatenation for all splits.", "anchors": ["src/cowl_object.c:cowl_has_iri_string"]}
{"id": "C18", "title": "Literals keep what they were built from", "statement": "A literal built from a value, a datatype and/or a language tag reports the same value, the same datatype (xsd:string for plain, rdf:langString for tagged) and the lower-cased tag; literals are equal exactly when value, datatype and case-insensitive tag are equal. (The datatypes rdf:langString and rdf:PlainLiteral given to cowl_literal are the subject of C19.)", "quantifier": "all values, datatypes and tags", "why_tests_cant": "Ranges over all strings and all combinations of optional arguments.", "anchors": ["src/cowl_literal.c:cowl_literal", "src/cowl_literal.c:cowl_literal_plain", "src/cowl_literal.c:cowl_literal_typed", "src/cowl_literal.c:cowl_literal_lang", "src/cowl_literal.c:cowl_literal_equals"]}
{"id": "C19", "title": "rdf:PlainLiteral and rdf:langString literals never crash", "statement": "Building a literal with datatype rdf:PlainLiteral or rdf:langString from any value string (with or without an @tag suffix) succeeds or fails cleanly, and splits value and tag at the last @.", "quantifier": "all value strings, with and without '@'", "why_tests_cant": "The failing inputs are the whole class of strings without a non-empty tag after the last '@'.", "anchors": ["src/cowl_literal.c:parse_lang", "src/cowl_literal.c:cowl_literal_parse_lang_alloc"]}
{"id": "C20", "title": "Prefix map is a finite map", "statement": "After any sequence of add (with and without overwrite), remove by prefix, remove by namespace and merge, by a client that keeps the strings it passes alive (C51 is about other clients), looking up a prefix returns the namespace given by the obvious finite-map semantics, with reserved prefixes pinned to their standard namespaces.", "quantifier": "all finite histories of prefix-map operations from the initial map", "why_tests_cant": "Refinement over unbounded histories including interactions of both removal functions.", "anchors": ["src/cowl_prefix_map.c:cowl_prefix_map_add", "src/cowl_prefix_map.c:cowl_prefix_map_remove_prefix", "src/cowl_prefix_map.c:cowl_prefix_map_remove_ns", "src/cowl_prefix_map.c:cowl_prefix_map_merge"]}
{"id": "C21", "title": "Reverse prefix lookup is consistent with the forward map", "statement": "After any history, cowl_prefix_map_get_prefix(m, ns) returns a prefix that the map currently binds to ns, of minimal length among them, and returns nothing exactly when no prefix is bound to ns.", "quantifier": "all finite histories of operations and lookups, all hash iteration orders", "why_tests_cant": "The reverse map is a lazily refreshed cache; staleness depends on the interleaving of lookups and updates.", "anchors": ["src/cowl_prefix_map.c:update_reverse_map", "src/cowl_prefix_map.c:cowl_prefix_map_get_prefix"]}
{"id": "C22", "title": "Short IRI expansion", "statement": "Expanding a short IRI p:r yields the IRI whose text is the namespace bound to p followed by r, fails if p is unbound, and never reads outside the string.", "quantifier": "all strings and all prefix-map states", "why_tests_cant": "Malformed inputs (no colon, empty prefix, several colons) times all map contents.", "anchors": ["src/cowl_prefix_map.c:cowl_prefix_map_parse_short_iri", "src/cowl_prefix_map.c:cowl_prefix_map_parse_iri", "src/cowl_prefix_map.c:cowl_prefix_map_get_iri"]}
{"id": "C23", "title": "Reserved prefixes cannot be hijacked", "statement": "Whatever sequence of additions and merges is performed, a reserved prefix (owl, rdf, rdfs, xsd) is only ever bound to its standard namespace.", "quantifier": "all histories", "why_tests_cant": "Adversarial histories over unbounded inputs.", "anchors": ["src/cowl_prefix_map.c:intern_ns", "src/cowl_prefix_map.c:register_reserved"]}
{"id": "C24", "title": "Ontology contents equal the history of edits", "statement": "After any sequence of axiom additions and removals, axiom counts (total, per type, per type set) and axiom iteration report exactly the multiset of axioms added and not yet removed.", "quantifier": "all finite edit histories starting from an empty ontology, all axiom types", "why_tests_cant": "Index structures mutate on every edit; the property is about all histories.", "anchors": ["src/cowl_ontology.c:cowl_ontology_add_axiom", "src/cowl_ontology.c:cowl_ontology_remove_axiom", "src/cowl_ontology.c:cowl_ontology_axiom_count", "src/cowl_ontology.c:cowl_ontology_iterate_axioms", "src/cowl_ontology.c:cowl_ontology_iterate_axioms_of_type"]}
{"id": "C25", "title": "Axioms for a primitive", "statement": "cowl_ontology_iterate_axioms_for_primitive(o, p) delivers exactly the axioms currently in the ontology that mention p, and the corresponding count is their number.", "quantifier": "all edit histories, all primitives", "why_tests_cant": "Agreement of a secondary index with the primary store in all reachable states.", "anchors": ["src/cowl_ontology.c:cowl_ontology_iterate_axioms_for_primitive", "src/cowl_ontology.c:cowl_ontology_axiom_count_for_primitive"]}
{"id": "C26", "title": "Axiom membership", "statement": "cowl_ontology_has_axiom(o, a) is true exactly when an axiom equal to a is in the ontology, independently of which index is scanned.", "quantifier": "all edit histories, all axioms", "why_tests_cant": "The code picks the smallest index heuristically; correctness must hold for every choice.", "anchors": ["src/cowl_ontology.c:cowl_ontology_has_axiom", "src/cowl_ontology.c:best_index"]}
{"id": "C27", "title": "Axiom removal", "statement": "cowl_ontology_remove_axiom(o, a) returns true exactly when an axiom equal to a was present, and then exactly one such axiom disappears from every query and the reference the ontology held is given back.", "quantifier": "all edit histories, all axioms (same object or merely equal)", "why_tests_cant": "Needs equal-but-distinct objects and consistency of all indices afterwards.", "anchors": ["src/cowl_ontology.c:cowl_ontology_remove_axiom", "src/cowl_ontology.c:remove_and_unindex"]}
{"id": "C28", "title": "Axiom filters", "statement": "cowl_ontology_iterate_axioms_matching(o, filter) delivers exactly the axioms whose type is in the filter's type set, that mention all the filter's primitives, and that satisfy the filter's closure.", "quantifier": "all ontologies reachable by edits, all filters", "why_tests_cant": "The code chooses among several indices depending on sizes; all choices must agree.", "anchors": ["src/cowl_ontology.c:cowl_ontology_iterate_axioms_matching", "src/cowl_axiom_filter_private.h:cowl_axiom_filter_matches"]}
{"id": "C29", "title": "Bulk removal by filter", "statement": "cowl_ontology_remove_axioms_matching(o, filter) removes exactly the axioms that match the filter, returns how many, and never touches freed memory.", "quantifier": "all ontologies reachable by edits, all filters", "why_tests_cant": "Removal while iterating the very index being modified; depends on repeated mentions.", "anchors": ["src/cowl_ontology.c:cowl_ontology_remove_axioms_matching", "src/cowl_ontology.c:remove_matching"]}
{"id": "C30", "title": "Ontology signature", "statement": "cowl_ontology_has_primitive, primitive_count and iterate_primitives report exactly the primitives that occur in the current axioms and annotations, each once.", "quantifier": "all edit histories", "why_tests_cant": "State after removals depends on history.", "anchors": ["src/cowl_ontology.c:cowl_ontology_has_primitive", "src/cowl_ontology.c:cowl_ontology_primitive_count", "src/cowl_ontology.c:cowl_ontology_iterate_primitives"]}
{"id": "C31", "title": "Related primitives", "statement": "cowl_ontology_iterate_related(o, p, types, position) delivers exactly the operands, other than p itself, found at the given positions of the axioms of the given types having p as an operand, once per axiom.", "quantifier": "all ontologies, primitives, axiom types and positions", "why_tests_cant": "Product of index choice, positions and operand lists.", "anchors": ["src/cowl_ontology.c:cowl_ontology_iterate_related"]}
{"id": "C32", "title": "Imports and annotations are ordered collections", "statement": "After any sequence of add/remove of imports and annotations, iteration delivers the elements added and not removed.", "quantifier": "all edit histories", "why_tests_cant": "History dependent, including removal of the last element and re-adding.", "anchors": ["src/cowl_ontology.c:cowl_ontology_add_import", "src/cowl_ontology.c:cowl_ontology_add_annot", "src/cowl_ontology.c:vector_ptr_add", "src/cowl_ontology.c:vector_ptr_remove"]}
{"id": "C33", "title": "Applying an ontology as a change", "statement": "Feeding an ontology to a change handler that writes into another ontology with the ADD change copies prefixes, IRI, version, annotations, imports and axioms; with REMOVE it removes them all.", "quantifier": "all pairs of ontologies", "why_tests_cant": "All contents and return-code paths.", "anchors": ["src/cowl_change_handler.c:cowl_change_handler_to_ontology", "src/cowl_change_handler.c:cowl_change_handler_handle_ontology"]}
{"id": "C34", "title": "Collecting iterators collect everything", "statement": "Using the vector (resp. set) storing iterator with any iteration function collects all delivered elements (resp. the set of them), retaining exactly the collected ones when asked to; the counting iterator counts them.", "quantifier": "all delivered sequences, with repetitions", "why_tests_cant": "Depends on duplicates and order of delivered elements.", "anchors": ["src/cowl_iterator.c:cowl_iterator_vec", "src/cowl_iterator.c:cowl_iterator_set"]}
{"id": "C35", "title": "ProtocOWL literal value compression is lossless", "statement": "A literal written to ProtocOWL and read back has the same value, datatype and tag.", "quantifier": "all literals with all values, for every compressed datatype family", "why_tests_cant": "Numeric canonicalisation only loses particular spellings; all strings must be covered.", "anchors": ["src/formats/protocowl/writer/cowl_prt_encoder.c:encode_literal", "src/formats/protocowl/reader/cowl_prt_decoder.c:decode_literal"]}
{"id": "C36", "title": "ProtocOWL expression and axiom round trip", "statement": "Any well-formed axiom (with any nesting of expressions and annotations) written to ProtocOWL and read back with the corresponding declarations is structurally equal to the original, and the decoder consumes exactly the bytes produced.", "quantifier": "all well-formed axioms, expressions, annotations, any following bytes", "why_tests_cant": "Unbounded trees, all constructors, arbitrary trailing input.", "anchors": ["src/formats/protocowl/writer/cowl_prt_encoder.c:encode_object", "src/formats/protocowl/reader/cowl_prt_decoder.c:decode_axiom"]}
{"id": "C37", "title": "ProtocOWL ontology round trip", "statement": "Writing an ontology to ProtocOWL and reading it back yields an ontology with the same IRI, version, imports, annotations and axioms.", "quantifier": "all ontologies", "why_tests_cant": "End to end property over all contents and hash iteration orders.", "anchors": ["src/formats/protocowl/writer/cowl_prt_encoder.c:write_ontology", "src/formats/protocowl/reader/cowl_prt_decoder.c:read_ontology"]}
{"id": "C38", "title": "ProtocOWL streaming round trip", "statement": "Streaming any sequence of header elements and axioms (adds and removes) through the writer with any index size limit and any buffer flushing, then reading the stream, reproduces the same sequence of changes.", "quantifier": "all sequences of stream operations, all index sizes", "why_tests_cant": "Flush points and index resets depend on sizes and history.", "anchors": ["src/formats/protocowl/writer/cowl_prt_encoder.c:stream_encoder_flush_if_needed", "src/formats/protocowl/writer/cowl_prt_encoder.c:encoder_should_flush"]}
{"id": "C39", "title": "The ProtocOWL decoder is total on arbitrary bytes", "statement": "For every byte string the reader terminates with either a result or an error and performs no invalid memory access.", "quantifier": "all byte strings, valid or malicious", "why_tests_cant": "Fuzzing samples; the property ranges over all inputs.", "anchors": ["src/formats/protocowl/reader/cowl_prt_decoder.c:read_ontology", "src/formats/protocowl/reader/cowl_prt_decoder.c:decode_sub_obj_prop_axiom"]}
{"id": "C40", "title": "Writer and reader agree on indices", "statement": "Every identifier the ProtocOWL writer emits for a namespace or an entity/individual denotes on the reader side the same namespace or primitive, at every point of every stream.", "quantifier": "all sequences of declarations, references, flushes and resets", "why_tests_cant": "Indices are re-assigned when declarations are partitioned; agreement is a two-sided invariant.", "anchors": ["src/formats/protocowl/cowl_prt_index.c"]}
{"id": "C41", "title": "ProtocOWL control frames", "statement": "Add, remove and reset frames switch the change type applied to the elements that follow and clear exactly the requested index tables on both sides.", "quantifier": "all frame sequences", "why_tests_cant": "Stateful protocol over unbounded streams.", "anchors": ["src/formats/protocowl/writer/cowl_prt_encoder.c:stream_encoder_write_ctrl_frame", "src/formats/protocowl/reader/cowl_prt_decoder.c:decode_frame"]}
{"id": "C42", "title": "String escaping round trip in functional syntax", "statement": "Any literal value written by the functional-syntax writer and read back by the reader's lexer is the same string.", "quantifier": "all byte strings (without NUL)", "why_tests_cant": "All combinations of quotes and backslashes.", "anchors": ["src/formats/functional/writer/cowl_func_writer.c:write_literal_value", "src/formats/functional/reader/cowl_functional.l", "src/cowl_string.c:cowl_string_get_ns_rem"]}
{"id": "C43", "title": "IRI writing and reading in functional syntax", "statement": "An IRI written by the functional-syntax writer (full or abbreviated through the prefix map) is read back as the same IRI.", "quantifier": "all IRIs and prefix maps", "why_tests_cant": "Depends on lexical classes of every remainder and on all prefix maps.", "anchors": ["src/formats/functional/writer/cowl_func_writer.c:write_iri", "src/formats/functional/reader/cowl_functional.l"]}
{"id": "C44", "title": "Functional syntax grammar round trip", "statement": "The token sequence the functional-syntax writer emits for any well-formed expression or axiom parses back to a structurally equal object, and the grammar consumes exactly these tokens.", "quantifier": "all well-formed axioms and expressions, any following tokens", "why_tests_cant": "Recursive grammar with optional annotations and lists.", "anchors": ["src/formats/functional/writer/cowl_func_writer.c", "src/formats/functional/reader/cowl_functional.y"]}
{"id": "C45", "title": "Functional syntax lexing round trip", "statement": "The text produced by the functional-syntax writer is split by the reader's lexer (longest match) into exactly the tokens the writer intended.", "quantifier": "all token sequences produced by the writer", "why_tests_cant": "Longest-match ambiguity across token boundaries for all contents.", "anchors": ["src/formats/functional/writer/cowl_func_writer.c", "src/formats/functional/reader/cowl_functional.l"]}
{"id": "C46", "title": "Functional syntax ontology header round trip", "statement": "Writing an ontology header (IRI, version, imports, annotations) and reading it back gives the same header.", "quantifier": "all headers, including those without IRI or without version", "why_tests_cant": "All combinations of optional fields.", "anchors": ["src/formats/functional/writer/cowl_func_writer.c:write_header", "src/formats/functional/reader/cowl_functional.y"]}
{"id": "C47", "title": "Prefix declarations resolve consistently", "statement": "While reading functional syntax, a short IRI resolves to the namespace that the resulting ontology's prefix map binds to its prefix.", "quantifier": "all prefix-declaration sequences and reader configurations", "why_tests_cant": "Two prefix maps are updated with different policies; divergence depends on the history of declarations.", "anchors": ["src/formats/functional/reader/cowl_functional.y", "src/formats/functional/reader/cowl_func_reader.c", "src/cowl_reader.c"]}
{"id": "C48", "title": "Decimal conversion of unsigned integers", "statement": "Writing an unsigned integer in decimal and parsing it back gives the same integer; the text has no superfluous zeros.", "quantifier": "all unsigned integers of the configured width", "why_tests_cant": "2^32 / 2^64 values and buffer lengths.", "anchors": ["src/cowl_cstring.c:cowl_str_from_uint", "src/cowl_cstring.c:cowl_str_to_uint"]}
{"id": "C49", "title": "Axiom-type set iteration", "statement": "Iterating an axiom-flag set visits exactly the axiom types in the set, each once and in increasing order; the universal set contains all 37 types.", "quantifier": "all axiom flag sets", "why_tests_cant": "2^37 sets.", "anchors": ["include/cowl_axiom_flags.h"]}
{"id": "C50", "title": "Object kind predicates partition the object types", "statement": "cowl_is_axiom / is_cls_exp / is_data_range / is_obj_prop_exp / is_data_prop_exp / is_individual / is_entity / is_primitive hold exactly for the types belonging to the corresponding OWL category, and the axiom/expression type getters invert the constructors' type.", "quantifier": "all object types", "why_tests_cant": "Range comparisons on enum values that break silently when the enum is extended; checked for every type.", "anchors": ["src/cowl_object.c:cowl_is_axiom", "src/cowl_object.c:cowl_is_entity", "src/cowl_primitive.c:cowl_primitive_get_type"]}
{"id": "C51", "title": "Prefix maps never use released strings", "statement": "No sequence of prefix-map operations by a client that respects reference counting reads, retains or releases a string object that has already been freed.", "quantifier": "all histories of prefix-map operations interleaved with client releases, all interning outcomes", "why_tests_cant": "The reverse table holds unowned pointers; whether they dangle depends on the whole history and on which strings the client still owns.", "anchors": ["src/cowl_prefix_map.c:update_reverse_map", "src/cowl_prefix_map.c:cowl_prefix_map_add", "src/cowl_prefix_map.c:cowl_prefix_map_remove_ns", "src/cowl_prefix_map.c:cowl_prefix_map_remove_prefix"]}
{"id": "C52", "title": "Parsing a decimal numeral gives its value or an error", "statement": "cowl_str_to_uint on a string of decimal digits returns the number it denotes, and returns the error value exactly for strings that are not numerals of the integer's range.", "quantifier": "all byte strings, all integer widths", "why_tests_cant": "Overflow happens only for numerals beyond 2^32 or 2^64.", "anchors": ["src/cowl_cstring.c:cowl_str_to_uint"]}
{"id": "C53", "title": "Reserved vocabulary is recognised exactly", "statement": "An IRI built from a string is reported as reserved exactly when the string is one of the namespaces of OWL, RDF, RDFS or XSD, alone or followed by a name; an object is reserved exactly when it is such an IRI or an entity named by one.", "quantifier": "all strings and objects", "why_tests_cant": "Depends on where arbitrary texts are split into namespace and remainder.", "anchors": ["src/cowl_iri.c:cowl_iri_is_reserved", "src/cowl_object.c:cowl_is_reserved", "src/cowl_vocab.c:cowl_vocab_is_reserved_ns", "src/cowl_xml_utils.c:cowl_xml_ns_length"]}
{"id": "C55", "title": "A failing reader stops calling the handler", "statement": "While reading ProtocOWL, once the change handler has returned an error or the input has been found malformed, the handler is not called again and the reader returns an error.", "quantifier": "all byte strings and all handlers, whatever state they keep", "why_tests_cant": "The failing call can be any of unboundedly many, and the malformed place any in the input.", "anchors": ["src/formats/protocowl/reader/cowl_prt_decoder.c:decoder_handle_change", "src/formats/protocowl/reader/cowl_prt_decoder.c:decode_frames", "src/formats/protocowl/reader/cowl_prt_decoder.c:decode_sub_obj_prop_axiom"]}
{"id": "C56", "title": "Functional-syntax ontology round trip", "statement": "Writing an ontology in functional syntax and reading the text into a new ontology gives an ontology with the same IRI, version, imports, annotations and axioms, in which every prefix of the original resolves as before.", "quantifier": "all ontologies reachable through the API, all default prefix maps, all hash table orders", "why_tests_cant": "Unbounded contents, and two prefix maps built in different orders.", "anchors": ["src/formats/functional/writer/cowl_func_writer.c:func_write_header", "src/formats/functional/reader/cowl_func_reader.c", "src/formats/functional/reader/cowl_functional.y", "src/cowl_ontology.c"]}
{"id": "C57", "title": "The functional reader is safe on every input", "statement": "Reading any byte sequence as functional syntax ends, without undefined behaviour, and returns success, a syntax error or a memory error.", "quantifier": "all byte strings, prefix maps, change handlers, integer widths and signedness of char", "why_tests_cant": "Infinite input space; the failing combination needs a datatype IRI reached through arbitrary prefix declarations.", "anchors": ["src/formats/functional/reader/cowl_functional.y", "src/formats/functional/reader/cowl_functional.l", "src/formats/functional/reader/cowl_func_reader.c", "src/cowl_literal.c:cowl_literal"]}
{"id": "C58", "title": "The functional reader accepts only complete documents", "statement": "A text that is read successfully is one whole document with nothing after it; a text cut short is not read as a smaller ontology.", "quantifier": "all byte strings and all places to cut them", "why_tests_cant": "Every cut of every document, inside any token.", "anchors": ["src/formats/functional/reader/cowl_functional.y", "src/formats/functional/reader/cowl_functional.l"]}
{"id": "C60", "title": "The functional reader delivers sound changes in document order", "statement": "Whatever the input, the changes given to the handler add objects of the right category, in the order prefixes, IRI, version, imports and annotations, axioms, with one IRI and one version at most.", "quantifier": "all byte strings, prefix maps and change handlers, also when reading fails", "why_tests_cant": "Unbounded inputs, including malformed ones.", "anchors": ["src/formats/functional/reader/cowl_functional.y"]}
{"id": "C61", "title": "A failing handler stops the functional reader", "statement": "Once the change handler has returned an error, the functional reader does not call it again and returns its error.", "quantifier": "all byte strings and all handlers, whatever state they keep", "why_tests_cant": "The failing call can be any of unboundedly many.", "anchors": ["src/formats/functional/reader/cowl_functional.y", "src/cowl_change_handler.c"]}
{"id": "C62", "title": "An ontology read from functional syntax contains exactly what the text says", "statement": "Reading a text into a new ontology never fails on the side of the ontology, and leaves in it exactly the axioms, annotations, imports, IRI and version that the reader delivered.", "quantifier": "all byte strings, default prefix maps and hash table orders", "why_tests_cant": "Unbounded texts, and the ontology keeps several indices.", "anchors": ["src/formats/functional/reader/cowl_functional.y", "src/cowl_change_handler.c", "src/cowl_ontology.c", "src/cowl_reader.c"]}
{"id": "C63", "title": "The functional reader accepts exactly the documents of the grammar", "statement": "A text is read successfully exactly when its tokens form an ontology document of the OWL 2 functional-style grammar, and the changes delivered are then exactly the parts of the document in their order; no sequence of tokens stands for two different constructs.", "quantifier": "all byte strings, prefix maps and token sequences of any nesting depth, with a change handler that accepts every change", "why_tests_cant": "The grammar is recursive: tests sample it, and cannot show that nothing else is accepted.", "anchors": ["src/formats/functional/reader/cowl_functional.y", "src/formats/functional/reader/cowl_functional.l", "src/formats/functional/reader/cowl_func_reader.c"]}
{"id": "C64", "title": "The functional lexer cuts every text into the longest tokens", "statement": "Every text is cut in exactly one way into white space, comments and tokens, each the longest that the lexical grammar of the functional-style syntax allows at its place; strings lose their escapes and nothing else. Together with C63 this says which byte strings are read successfully.", "quantifier": "all byte strings of any length, and every width of the integer type", "why_tests_cant": "Longest match depends on unboundedly many following bytes; tests use well-formed texts.", "anchors": ["src/formats/functional/reader/cowl_functional.l", "src/formats/functional/reader/cowl_functional.y"]}
{"id": "C59", "title": "A functional writer can be reused", "statement": "A functional writer can write any number of documents one after the other: each text is the one a new writer would write, prefix maps are kept alive as long as the writer needs them, and freeing the writer gives back what it holds.", "quantifier": "all histories of prefix map creation, retain, release and edits interleaved with headers, axioms, footers and the end of the writer", "why_tests_cant": "The writer keeps a pointer between calls; errors need a particular order of calls and releases.", "anchors": ["src/formats/functional/writer/cowl_func_writer.c:encoder_set_prefix_map", "src/formats/functional/writer/cowl_func_writer.c:func_write_header", "src/formats/functional/writer/cowl_func_writer.c:func_write_axiom", "src/formats/functional/writer/cowl_func_writer.c:func_free"]}
{"id": "C65", "title": "Writing an ontology gives the writer the header, every axiom and the footer", "statement": "cowl_writer_write_ontology on a streaming writer calls write_header once, then write_axiom once for each axiom of the ontology, then write_footer once; it stops at the first call that does not succeed, and returns its code.", "quantifier": "all ontologies, and all writers, whatever their answers and however these depend on earlier calls", "why_tests_cant": "Writers are supplied by clients; failures can occur at any of unboundedly many calls.", "anchors": ["src/cowl_writer.c:cowl_writer_write_ontology", "src/cowl_writer.c:write_ontology_stream", "src/cowl_ontology.c:cowl_ontology_iterate_axioms"]}
{"id": "C66", "title": "Saving to and loading from files reports every failure", "statement": "A successful cowl_writer_write_ontology_to_path means that the writer was given the whole ontology and that the file was closed without error; cowl_reader_read_ontology_from_path returns what cowl_reader_read_ontology returns on the contents of the file, and never touches the handler if the file cannot be opened; in both the file is closed exactly once if it was opened.", "quantifier": "all readers, writers, ontologies and outcomes of opening and closing", "why_tests_cant": "Requires I/O failures at any step, and arbitrary readers and writers.", "anchors": ["src/cowl_writer.c:cowl_writer_write_ontology_to_path", "src/cowl_reader.c:cowl_reader_read_path", "src/cowl_reader.c:cowl_reader_read_ontology", "src/cowl_reader.c:cowl_reader_read_ontology_from_path"]}
{"id": "C67", "title": "Library start-up is all or nothing", "statement": "cowl_init either succeeds or leaves nothing allocated and returns COWL_ERR_MEM; cowl_deinit gives back everything; both can be called any number of times in any order.", "quantifier": "all sequences of cowl_init and cowl_deinit, with any allocations failing", "why_tests_cant": "Needs allocation failures inside start-up.", "anchors": ["src/cowl_config.c:cowl_init", "src/cowl_config.c:cowl_deinit", "src/cowl_vocab.c:cowl_vocab_init", "src/cowl_vocab_private.h"]}
{"id": "C68", "title": "Saving and reloading an ontology that was read from a file changes nothing", "statement": "If a text in functional syntax is read into a new ontology, the ontology can be written in functional syntax, and reading the result into another new ontology gives the same IRI, version, imports, annotations, axioms and prefixes.", "quantifier": "all texts the reader accepts, of any length and nesting, all default prefix maps and all hash table iteration orders", "why_tests_cant": "A round trip over arbitrary input texts: tests try a few files, the failures are in rare combinations of names, prefixes and literals.", "anchors": ["src/formats/functional/reader/cowl_functional.y", "src/formats/functional/reader/cowl_functional.l", "src/formats/functional/writer/cowl_func_writer.c", "src/cowl_prefix_map.c", "src/cowl_iri.c:cowl_iri"]}
{"id": "C54", "title": "Getters return what was passed to the constructor", "statement": "After any constructor of axioms, annotations, class expressions, data ranges or facet restrictions, each getter of the new object returns exactly the argument of the same name: operands, annotations (NULL if none or an empty vector was passed), cardinalities and fillers (owl:Thing or rdfs:Literal when omitted). This remains so until the last reference to the object is given up, whatever else is called.", "quantifier": "all constructors, all arguments, all histories of calls before the construction and after it", "why_tests_cant": "Every constructor/getter pair in every state; a later call that damages an object needs a particular history.", "anchors": ["src/cowl_object.c:cowl_get_field", "src/cowl_object.c:cowl_get_opt_field", "src/cowl_object.c:cowl_get_uint_field", "src/cowl_object.c:cowl_get_annot", "src/cowl_object.c:cowl_get_impl_annot", "src/cowl_obj_quant.c:cowl_obj_quant_get_filler", "src/cowl_data_quant.c:cowl_data_quant_get_range", "include/cowl_sub_cls_axiom.h:cowl_sub_cls_axiom_get_sub"]}
{"id": "C69", "title": "The index size bounds what a ProtocOWL writer and its reader remember", "statement": "After cowl_writer_protocowl_set_index_size(writer, n) with n > 0, whatever is streamed, the writer never keeps more than n identifiers and namespaces (besides the five standard ones) and n unwritten elements between calls, and neither does a reader of the stream; if n is enough for everything the client uses, nothing is ever forgotten or declared twice.", "quantifier": "all headers, all sequences of axioms, changes of mode and resets, all n", "why_tests_cant": "The bound must hold at every point of streams of any length; flushes and resets depend on the whole history.", "anchors": ["src/formats/protocowl/writer/cowl_prt_encoder.c:encoder_should_flush", "src/formats/protocowl/writer/cowl_prt_encoder.c:stream_encoder_flush_if_needed", "src/formats/protocowl/writer/cowl_prt_encoder.c:cowl_writer_protocowl_set_index_size", "src/formats/protocowl/cowl_prt_index.c", "include/cowl_writer.h:cowl_writer_protocowl_set_index_size"]}
{"id": "C70", "title": "A truncated ProtocOWL stream is read as a beginning of the whole", "statement": "Reading a ProtocOWL stream of which the end is missing delivers the first few of the changes that reading the whole stream delivers, each of them complete; a stream of which the end is missing is reported as such.", "quantifier": "all byte strings, all points at which they are cut, all change handlers", "why_tests_cant": "A file can be cut at any byte, inside constructs nested to any depth; what was delivered must agree with what the missing bytes would have said.", "anchors": ["src/formats/protocowl/reader/cowl_prt_decoder.c:read_bytes", "src/formats/protocowl/reader/cowl_prt_decoder.c:decode_frame", "src/formats/protocowl/reader/cowl_prt_decoder.c:decode_sub_obj_prop_axiom", "include/cowl_reader.h:cowl_reader_read_stream"]}
{"id": "C71", "title": "Identifiers of entities are unique, increasing and permanent", "statement": "In a build with COWL_ENTITY_IDS, cowl_entity_with_id(cowl_entity_get_id(e)) is e for every entity e; different entities have different identifiers; a new entity gets the next number; an entity keeps its identifier and its identity for the life of the library, even after all its references are released; shutting down frees every entity that nobody holds.", "quantifier": "all finite histories of requests, retains and releases of entities, with any allocations failing", "why_tests_cant": "The correspondence must survive every order of creation, failed creation, release and re-request; the option is off in the default build, which is the one that is tested.", "anchors": ["src/cowl_entity.c:cowl_entity_alloc", "src/cowl_entity.c:cowl_entity_get_impl", "src/cowl_entity.c:cowl_entity_get_id", "src/cowl_entity.c:cowl_entity_with_id", "src/cowl_entity.c:cowl_entity_api_deinit"]}
{"id": "C72", "title": "White space and comments between tokens do not matter", "statement": "Reading a text in functional syntax depends only on its tokens: any white space and any comments may stand before, between and after them, and may be left out next to brackets, equals signs, quoted strings and IRIs in angle brackets. Texts that differ only in layout are read with the same result and the same changes.", "quantifier": "all token sequences, all layouts of them, all prefixes and change handlers", "why_tests_cant": "Any token may be followed by any layout and any other token; the scanner takes the longest match, so each combination could merge tokens or swallow them.", "anchors": ["src/formats/functional/reader/cowl_functional.l:WHITESPACE", "src/formats/functional/reader/cowl_functional.l:COMMENT", "src/formats/functional/reader/cowl_func_reader.c:func_read"]}
{"id": "C73", "title": "Running out of memory in a constructor is harmless", "statement": "If memory runs out while an object is being created (string, IRI, entity, anonymous individual, literal, vector, axiom, expression, ontology), the constructor returns NULL; memory has the same objects as before with the same contents and reference counts, nothing leaks, equal names are still represented by one object, and after all references are released shutting down frees everything. A constructor returns NULL only if memory ran out.", "quantifier": "all histories of calls, all constructors and arguments, all sets of requests for memory that fail", "why_tests_cant": "Every request of every constructor can fail in every state of the tables and counts; tests practically never make an allocation fail.", "anchors": ["src/cowl_string.c:cowl_string_get_intern", "src/cowl_iri.c:cowl_iri_unvalidated", "src/cowl_iri.c:cowl_iri", "src/cowl_entity.c:cowl_entity_get_impl", "src/cowl_anon_ind.c:anon_ind", "src/cowl_anon_ind.c:anon_ind_generate", "src/cowl_literal.c:cowl_literal_alloc", "src/cowl_vector.c:cowl_vector_with_args", "src/cowl_object.c:cowl_get_impl", "src/cowl_has_key_axiom.c:cowl_has_key_axiom"]}
{"id": "C74", "title": "The text of an object identifies it and can be pasted into a document", "statement": "cowl_to_string gives different texts to different objects; the texts of axioms can be pasted, one per line, between Ontology( and ), and reading the document yields exactly these axioms in order.", "quantifier": "all objects, all nestings, all states of the global prefix map", "why_tests_cant": "Texts are concatenations of abbreviations, escapes and nested constructs of any depth; two different objects could collide anywhere.", "anchors": ["src/cowl_object.c:cowl_to_string", "src/cowl_writer.c:cowl_write", "src/formats/functional/writer/cowl_func_writer.c:func_write"]}
{"id": "C75", "title": "Converting between the two formats keeps the contents", "statement": "Reading a functional-syntax text into an ontology, writing the ontology in ProtocOWL and reading that into a new ontology gives exactly the axioms, annotations, imports, IRI and version of the text; likewise from a ProtocOWL stream to a text, where also the prefixes are kept.", "quantifier": "all texts and all streams that can be read, all states of the writer, all orders in which hash tables are visited", "why_tests_cant": "The formats have different notions of literals, IRIs, identifiers and lists; any construct nested anywhere in a document of any size could be changed by the combination of two codecs, each of which looks right alone.", "anchors": ["src/formats/functional/reader/cowl_func_reader.c:func_read", "src/formats/protocowl/writer/cowl_prt_encoder.c:write_ontology", "src/formats/protocowl/reader/cowl_prt_decoder.c:read_ontology", "src/formats/functional/writer/cowl_func_writer.c:func_write_header", "src/cowl_iri.c:cowl_iri"]}
{"id": "C76", "title": "A call touches only what its arguments lead to", "statement": "An object that no pointer leads to from the arguments of a call, from the library or from a unique object (an IRI, an entity, an anonymous individual, an interned string) is in memory after the call exactly as before, header and contents, and the call does not create a way to it. So a part of a program, whatever it does with its own references, cannot change or get hold of the objects of another part that are not reachable from its own.", "quantifier": "all histories of the library, all sequences of calls of a part of the program and all references of the rest, all objects, both sizes of the header", "why_tests_cant": "Code that uses the library relies on its own vectors and ontologies being left alone by everybody else; a test can look at a few bystanders after a few calls, not at every object after every sequence.", "anchors": ["src/cowl_object.c:cowl_get_impl_annot", "src/cowl_object.c:cowl_release", "src/cowl_vector.c:cowl_vector_push", "src/cowl_ontology.c:cowl_ontology_add_axiom", "src/cowl_ontology.c:cowl_ontology_remove_axiom", "src/cowl_entity.c:cowl_entity_get_impl", "src/cowl_iri.c:cowl_iri"]}
{"id": "C77", "title": "Reading a text neither leaks nor corrupts memory", "statement": "Whatever tokens a functional-syntax document consists of, well-formed or not, wherever it is cut off and whatever the handler does with the objects it is given, the reader accesses nothing freed, NULL or of another type. When it returns, with success or with an error, it has kept no reference and given up none that it did not have: the count of every object is the number of references to it from the program, the library and other objects, and no object is lost.", "quantifier": "all sequences of tokens, all points at which the parser gives up, all handlers that obey the ownership rule, all states of memory and of the global prefix map", "why_tests_cant": "Every rule of the grammar has its own retains and releases, on success and on each error path, and the values on the parser's stack are destroyed by another table; a leak shows only in documents that fail at a particular symbol of a particular rule.", "anchors": ["src/formats/functional/reader/cowl_functional.y:%destructor", "src/formats/functional/reader/cowl_functional.y:ontology_document", "src/formats/functional/reader/cowl_functional.l:QSTRING", "src/formats/functional/reader/cowl_func_reader.c:func_read", "src/cowl_prefix_map.c:cowl_prefix_map_parse_short_iri"]}
{"id": "C78", "title": "The ProtocOWL reader neither leaks nor corrupts memory", "statement": "Whatever bytes a ProtocOWL stream delivers, wherever it ends or reports an error and whatever the handler does with the objects it is given, the reader accesses no freed or NULL object, releases exactly the references it created, and when it returns every object left in memory is referred to by the program, the library or another object.", "quantifier": "all byte strings, all reads that fail, all handlers that obey the ownership rule, all states of memory", "why_tests_cant": "Each decoding function keeps several references while it reads further bytes, and any of these reads may fail; the index of identifiers owns references that live across frames and resets. A leak or a double release shows only if the input is damaged at one particular byte.", "anchors": ["src/formats/protocowl/reader/cowl_prt_decoder.c:decode_vector", "src/formats/protocowl/reader/cowl_prt_decoder.c:decode_annotation", "src/formats/protocowl/reader/cowl_prt_decoder.c:decode_frame", "src/formats/protocowl/cowl_prt_index.c:id_map_get", "src/formats/protocowl/cowl_prt_index.c:prefix_map_reset"]}
{"id": "C79", "title": "The last error of a reader describes the last reading", "statement": "After every reading, cowl_reader_last_error(reader) tells about that reading and no earlier one: if it failed, the error has the code that was returned, with the message and the line or byte of the first error met; if it succeeded, there is no error. A reading that could not be done returns an error. No message of an error leaks or is freed twice, however often the reader is used.", "quantifier": "all sequences of readings with one reader, all errors of texts, streams, handlers and memory in any order", "why_tests_cant": "The error is kept between readings and overwritten in many places; whether old information shines through depends on the history of the reader.", "anchors": ["src/formats/functional/reader/cowl_func_reader.c:func_read", "src/formats/functional/reader/cowl_functional.y:cowl_func_yyerror", "src/formats/functional/reader/cowl_functional.y:cowl_func_state_set_error", "src/formats/protocowl/reader/cowl_prt_decoder.c:decoder_init", "src/formats/protocowl/reader/cowl_prt_decoder.c:decoder_handle_error", "src/formats/protocowl/reader/cowl_prt_decoder.c:read_ontology", "include/cowl_reader.h:cowl_reader_last_error", "src/cowl_error.c:cowl_error"]}
{"id": "C80", "title": "The text of an error shows everything that is known about it", "statement": "cowl_error_to_string gives the empty text if and only if there is no error; otherwise the text begins with the name of the code and contains the message and every known part of the location as a decimal number; errors with the same text have the same name, message and location.", "quantifier": "all errors, all messages and locations", "why_tests_cant": "There are as many errors as combinations of messages and numbers; two of them could have the same text.", "anchors": ["src/cowl_writer.c:cowl_write_error", "src/cowl_error.c:cowl_error_to_string", "src/cowl_ret.c:cowl_ret_to_string", "include/cowl_error.h:cowl_error_has_loc"]}
{"id": "C81", "title": "Readers and writers live exactly as long as they are needed", "statement": "Whatever a client does with readers and writers it supplies, by cowl_reader, cowl_writer, cowl_retain, cowl_release, cowl_set_reader, cowl_set_writer, cowl_init and cowl_deinit, using only objects it holds a reference to or that are a default: no call accesses an object that was freed; the free function of a reader or writer is called exactly once, at the moment when the client has no reference to it and it is not a default; the default is the last one set; after cowl_deinit, and when the client has given up its references, nothing is left.", "quantifier": "all histories of calls, any number of readers and writers, of initializations and of changes of the defaults", "why_tests_cant": "A reference too many or too few shows only for particular orders of setting, releasing and deinitializing; the histories are infinitely many.", "anchors": ["src/cowl_config.c:cowl_set_reader", "src/cowl_config.c:cowl_set_writer", "src/cowl_config.c:cowl_get_reader", "src/cowl_config.c:cowl_init", "src/cowl_config.c:cowl_deinit", "src/cowl_reader.c:cowl_reader", "src/cowl_reader.c:cowl_reader_free", "src/cowl_writer.c:cowl_writer", "src/cowl_writer.c:cowl_writer_free", "src/cowl_object.c:cowl_release"]}
{"id": "C82", "title": "Names of object types can be told apart and turned back", "statement": "cowl_object_type_from_string gives a type exactly for the name cowl_object_type_to_string gives for this type, and an invalid type (not below COWL_OT_COUNT) exactly for the texts that are the name of no type; different types have different names; the name of a number that is no type is the name of no type.", "quantifier": "all texts, all types and numbers", "why_tests_cant": "Texts are infinitely many, and a name shared by two types, or a type missing from the table of names, shows only for these types.", "anchors": ["src/cowl_object_type.c:cowl_object_type_to_string", "src/cowl_object_type.c:cowl_object_type_from_string", "include/cowl_object_type.h:CowlObjectType"]}
{"id": "C83", "title": "The index of a ProtocOWL writer holds exactly the references it needs", "statement": "Whatever prefixes, IRIs, entities and anonymous individuals a ProtocOWL writer is given, and however often it declares them or is reset: every object it numbers stays alive while a table refers to it, every object is released exactly as often as it was retained once the writer is freed and never more often before, no lookup of the writer misses, the number of an object leads back to an equal object and stays until the reset, and what is still to be declared is split correctly into namespaces with and without a prefix, and into IRIs and anonymous individuals.", "quantifier": "all histories of a writer, all objects and all equalities between them", "why_tests_cant": "Numbered objects are moved in the vector when others are inserted before them, and resets give up only one of the two tables; a lost or doubled reference shows only for particular orders.", "anchors": ["src/formats/protocowl/cowl_prt_index.c:prefix_map_add_encoding", "src/formats/protocowl/cowl_prt_index.c:id_map_add_encoding", "src/formats/protocowl/cowl_prt_index.c:prefix_map_sync_unencoded", "src/formats/protocowl/cowl_prt_index.c:id_map_sync_unencoded", "src/formats/protocowl/cowl_prt_index.c:prefix_map_deinit", "src/formats/protocowl/cowl_prt_index.c:cowl_prt_index_add_primitive", "src/formats/protocowl/cowl_prt_index.c:cowl_prt_index_deinit"]}
