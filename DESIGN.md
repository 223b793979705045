# Verification design for cowl

Subject: `sisinflab-swot/cowl` at the pinned commit in `/repo` (C library for OWL 2 ontologies).
The code is read as text only; nothing is compiled or run.

## 1. Method

The C functions are transcribed, function by function, into total computable Gallina functions
(`rocq/theories/Model*.v`). Every definition cites the file and lines it models and says what it
simplifies. Specifications (`Spec*.v`) are written separately, in terms of what a user of the API
observes: full IRI text, multiset of axioms, finite maps, occurrence of a primitive in an object.
Proofs live in `Proof*.v`. `Properties*.v` contains only the property theorems, each closed by
`exact` and followed by `Print Assumptions`. `Examples*.v` exhibits, for each theorem, a concrete
non-trivial instance meeting its hypotheses.

Conventions

* Bytes are `N` below 256, strings are `list N` (C `UString` = pointer + length; embedded NUL allowed).
* Undefined behaviour (NULL dereference, use after free, out-of-bounds read, length underflow) is
  a distinct outcome, never a default value. Recoverable errors are another outcome.
* Return codes: `COWL_OK = COWL_CONTINUE = 0`, `COWL_NO = COWL_STOP = 1`, errors are negative.
* Memory exhaustion (allocation failure) is modelled during start-up (C66) and in the constructors (C73);
  elsewhere allocation always succeeds.
* Hash-table iteration order is unspecified: theorems quantify over every order.
* Fuel, where used, has a distinct "out of fuel" result and a theorem that enough fuel exists.

## 2. Trusted base

* Coq 8.16.1 kernel (and `coqchk`), `vm_compute` for the refutation witnesses and examples.
* `Print Assumptions` output of every property theorem is printed by the build; the intended result
  is "Closed under the global context" for all of them (section 6 lists any exception).
* The transcription from C to Gallina (manual, cited line by line).
* ulib (`/repo/lib/ulib`), an empty submodule here. Assumed behaviour:
  - `uvec`: growable array; `push` appends, `remove`/`unordered_remove` as named (the latter swaps
    with the last element), `contains/index_of/remove` on `CowlObjectPtr` compare with `cowl_equals`
    (see `src/cowl_vector.c`, `UVEC_IMPL_EQUATABLE`), `uvec_foreach_reverse` starts at `count-1` and counts down;
  - `uhash`: finite map up to the declared key equality, `put` returns `ULIB_OK` for a new key and
    `ULIB_NO` for a present one; iteration order unspecified; after `uhash_deinit` the table acts as an empty one
    (`cowl_deinit` relies on it: it frees the vocabularies, and the entities with identifiers, after the tables);
  - `ustring`: `index_of`/`index_of_last` return the length when nothing is found; equality is
    bytewise; `ustring_hash` is a function of the bytes;
  - streams: an in-memory output stream appends bytes, an input stream delivers them in order and
    reports an error at the end; `varint` = LEB128, `svarint` = zigzag LEB128;
  - reading a varint takes at most ten groups and fails with an error other than an I/O error at the end of the input;
    `ulib_str_to_int` is `strtol` (white space, sign, digits, saturation), `ustring_to_int` also requires that the
    whole text is a number in range; `printf` formats integers in shortest decimal notation;
  - reserving memory for a length announced by the input succeeds (cowl asks for it before reading the elements);
    the C stack is unbounded (the reader recurses on nested expressions);
  - `ulib_uint` is 32 bits wide (64 with `COWL_HUGE`); models take the width as a parameter when it matters.
  - for C73: `uhash_put` may fail whether or not the key is present and then changes nothing; a vector that cannot grow
    keeps its elements; `ustrbuf_to_string` frees its buffer when it fails; `ustring_dup` returns the null string.
    Strings short enough to be kept without a buffer never fail; the model lets every copy of a text fail;
* flex and bison: the scanner implements longest match / first rule of the patterns in
  `cowl_functional.l`; the LALR parser accepts the grammar of `cowl_functional.y` (its only
  nondeterminism is resolved by one token of lookahead, which the model's recursive-descent parser uses).
  For C77: the parser reduces a rule only if its right side is on top of the stack, and when it gives up it applies the
  %destructor of every symbol on the stack and of the lookahead token, if there is one. The table of rules
  was transcribed from `cowl_functional.y` by a script and checked by hand; the parser shifts tokens with the values
  the scanner's actions assign. Not modelled: the scanner's own buffer for the quoted string being read.
  Not modelled: bison's limit on its stack (`YYMAXDEPTH`, 10000), flex's buffers, errors of the input stream
  (the model's input ends where the stream does), the positions and texts of error messages.
  For C78: numbers, strings and literals are decoded as in `ModelPrtDecoder.v`; every read may fail; a bound on nested
  constructs and frames stands for the stack and the loops, and runs that exceed it are not considered (C39 shows that a
  bound of the length of the input is never exceeded).
  For C79: a reading is any list of the operations that the reader makes on its error and on the state of the stream; the
  order of these operations is not tied to an input. Bison calls yyerror with "syntax error" or "memory exhausted" and returns
  1 or 2 after it, and 1 after YYERROR and YYABORT. ulib's texts of return codes are a parameter (C80).
  For C81: memory allocation succeeds, reference counts do not overflow, and the free function of a reader or writer does not call
  the library.
  For C83: ulib's tables find a key that is equal to the one asked for, and only then; memory allocation succeeds except in the
  refutation.

## 3. What is modelled

| Area | Source | Model |
|---|---|---|
| object types, headers | `cowl_object_type.h`, `cowl_object_flags.h`, `cowl_object.c` | `ModelTypes.v`, `ModelHeader.v` |
| objects as values: equality, hash, iteration | `cowl_object.c`, `cowl_vector.c`, `cowl_literal.c`, `cowl_*_quant.c`, `cowl_axiom.c`, `cowl_iterator.c` | `ModelObject.v` |
| tables | `cowl_table.c` | `ModelTable.v` |
| heap, reference counts, interning | `cowl_object.c`, `cowl_string.c`, `cowl_iri.c`, `cowl_entity.c`, `cowl_anon_ind.c`, `cowl_literal.c`, `cowl_vector.c`, `cowl_ontology.c` (single changes) | `ModelHeap.v` |
| the functional syntax reader and memory | `cowl_functional.y` (actions, destructors), `cowl_functional.l` (values of tokens), `cowl_func_reader.c`, `cowl_prefix_map.c` | `ModelReadRules.v`, `ModelReadOwn.v` |
| errors of readers | `cowl_error.h`, `cowl_error.c`, `cowl_ret.c`, `cowl_writer.c` (cowl_write_error), error handling of `cowl_func_reader.c`, `cowl_functional.y`, `cowl_prt_decoder.c` | `ModelError.v` |
| readers, writers and defaults | `cowl_config.c`, `cowl_reader.c`, `cowl_writer.c` (constructors, destructors) | `ModelPlugin.v` |
| names of types | `cowl_object_type.c` | `ModelTypeName.v`, `ModelFuncWriter.v` |
| references of the ProtocOWL writer's index | `cowl_prt_index.c` (encoding) | `ModelPrtIndexMem.v` |
| the ProtocOWL reader and memory | `cowl_prt_decoder.c`, `cowl_prt_index.c` (decoding) | `ModelPrtOwn.v` |
| the constructors when memory runs out | the constructors in `cowl_string.c`, `cowl_iri.c`, `cowl_entity.c`, `cowl_anon_ind.c`, `cowl_literal.c`, `cowl_vector.c`, `cowl_object.c`, `cowl_has_key_axiom.c` | `ModelOom.v` |
| texts of single objects | `cowl_func_writer.c` (`func_write`), `cowl_writer.c` (`cowl_write`), `cowl_object.c` (`cowl_to_string`) | `ModelWrite.v` |
| entities with identifiers (build option `COWL_ENTITY_IDS`) | `cowl_entity.c` | `ModelIds.v` |
| constructors' parameter lists and getters of composites | `cowl_object.c`, all axiom and expression files | `ModelGet.v` |
| IRIs, XML names, literals, decimal strings | `cowl_iri.c`, `cowl_xml_utils.c`, `cowl_literal.c`, `cowl_cstring.c` | `ModelText.v` |
| prefix map | `cowl_prefix_map.c` | `ModelPrefixMap.v` |
| ontology and its indices, filters | `cowl_ontology.c`, `cowl_axiom_filter_private.h` | `ModelOntology.v` |
| change handlers | `cowl_change_handler.c`, `cowl_ontology.c` | `ModelChange.v` |
| ProtocOWL | `formats/protocowl/**` | `ModelPrt*.v` |
| functional syntax | `formats/functional/**` | `ModelFunc*.v` |
| readers, writers, files, start-up | `cowl_reader.c`, `cowl_writer.c`, `cowl_config.c`, context of `cowl_func_writer.c` | `ModelIO.v` |

Not modelled: allocation failure (except during start-up and in the constructors), stream I/O errors within a document, error message strings,
logging, locale, threads (the library is single-threaded), `cowl_manager`-like glue,
`cowl_vocab` initialisation beyond the constants used, the C++ header guards, CMake.

## 4. Plan per property

Objects (value model; a primitive is identified with its value, which C11 justifies)

* C01 equality laws: induction over the object tree. Expected false for unordered operand lists with
  repeated operands (`cowl_vector_equals_no_order` checks inclusion one way only): refutation by
  witness, and the laws for duplicate-free objects.
* C02 hash law: same induction; XOR over operands is permutation invariant. Same exception.
* C03 characterisation against an inductive relation of structural equivalence (`SpecObject.v`).
* C04, C05, C06: iterator as an arbitrary state transformer; iteration = stop-aware fold over the
  occurrence sequence; occurrence relation is an inductive predicate.
* C07: corollary shape, stated with an independent "strip annotations".
* C08: tables with addresses; expected false (early `return true`): witness.
* C09: positions; the spec lists operand slots by OWL name (left/middle/right).

Heap

* C10, C11: transition system of API calls with a client that owns references. Invariant: count of
  each live cell = references owned by the client + occurrences in live cells; the intern tables
  list exactly the live interned cells with distinct keys. Safety, no leak and uniqueness follow.
  Calls covered (34): retain, release, strings, IRIs, entities, anonymous individuals, literals, vectors
  and composite constructors, equality, iteration over primitives, ontologies (creation, IRI and version,
  annotations, imports, adding, finding and removing axioms), library start and shutdown. An ontology
  refers to its axioms once; the other indices, and the keys of all indices, are bare pointers, and the
  invariant says that every one that a call follows leads to a live object. Tables, prefix maps, readers
  and writers are outside this heap model (the prefix map model logs retains and releases itself).
  A call that removes may free objects, so the statement speaks of what can still be reached after it.
* C71: a model of its own, since the option changes the life time of entities: table, identifier map, counts, and flags for
  failing allocations. Invariant: the map lists the live entities by identifier, the count of each is one more than what the
  client holds. As in the default build, a table that `uhash_deinit` was called on acts as an empty table.
* C73: the constructors of ModelHeap.v once more, with an oracle that makes any of their requests for memory fail, each
  request at the place where the code makes it (ModelOom.v). The invariant of C10 and C11 is shown to be kept by every
  branch, so all their theorems hold for histories in which memory runs out any number of times. Buffers that no object
  owns are counted. Kept separate: calls that do not look at a result (refuted one by one). Not modelled as failing:
  requests made by ontologies for their indices and annotations.
* C74: `cowl_write` and `cowl_to_string` over the writer model of C43, with the global prefix map. The full claim is that the
  text of an object identifies it. Proved by pasting texts into a document and reading it with the reader model of C62.
  The streams accept everything and memory does not run out; the failing streams are the subject of C66.
* C75: no new model: the reader of C62, the ontology, the writer and reader of C37 and the writer of C43 in a row. The
  contents delivered by a text are related to the history of the ontology that received them, so that the conditions of C37
  become conditions on the text (`convertible`); the condition on version IRIs is met by every text.
* C76: no new model: the calls of the heap model (C10). A separate specification says when an object is apart from a list
  of references (no path of pointers from them, the library's objects or unique objects leads to it) and what a sequence
  of calls of one part of a program is. Proof by a frame argument: every function of the model reads and writes only
  cells reachable from its arguments, the library and the tables. The limit to objects that are not unique is needed: refuted.
* C77: a new model of the functional syntax reader as a client of the heap: the rules of the grammar with their actions,
  transcribed statement by statement (`ModelReadRules.v`), and bison's parser as a stack of symbols with values on which
  tokens are shifted and rules reduced (`ModelReadOwn.v`). Which of the two happens is left open, so every run of the real
  parser is a run of the model. Invariant: the references of the program, of the values on the stack and of the
  parser's prefix map together are those of a history of the heap model. Each rule is checked to spend every reference
  exactly once, on success and on every error path, by a checker that is proved sound and run on the table. Expected false
  for the buffers of quoted strings (no %destructor) and for literals of type rdf:langString without tag (see C19, C57).
* C78: a new model of the ProtocOWL reader as a client of the heap (`ModelPrtOwn.v`), with the functions of
  `ModelPrtDecoder.v` but pointers for objects, every retain and release, a stream that may fail at any read and a handler
  that does what the ownership rule allows. Invariant: the references of the program, of the variables of the
  functions that are running and of the index together are those of a history of the heap model; each decoding function
  returns either NULL or one reference of its own, and never NULL without an error. Proof by one triple per function,
  with the frame quantified. Expected false where NULL is passed to constructors (the places found for C39).
* C79: a model of the functions that touch the error of a reader (`ModelError.v`), with messages as allocated buffers. A
  reading is an arbitrary list of these operations, so that the theorems hold for all inputs, streams and handlers; histories
  are lists of readings. Invariant: the buffers allocated are exactly that of the current message. Expected false for the
  places where an error is returned without being recorded (YYERROR after the handler's answer, failing streams).
* C80: `cowl_write_error` as a function to bytes; the numerals are those of C52. Injectivity by cutting the text at the first
  bracket and the first colon. Expected false for messages with brackets.
* C81: readers and writers as numbered objects with reference counts, the two globals, and the list of contexts freed; calls are
  functions on that state, and access to NULL or to an object not in memory is a distinct result. The specification counts the
  references of the client from its calls alone. Invariant over histories: the count of an object is the number of references of
  the client and of the globals, and exactly the objects without references were freed.
* C82: the loop of `cowl_object_type_from_string` over the numbers of the types; induction on the loop for all texts, and a case for
  each type of the enumeration.
* C83: the vector and tables of the index over pointers, with equality given by any function from pointers to keys; each operation
  also gives the list of its calls of cowl_retain and cowl_release. Invariant: the keys of a table are a permutation of its
  vector, no two equal, and the numbered part of the vector does not move. Counting over the list of calls gives the balance.
  The part of the vector not yet declared is cut at the separator into two views; an invariant says what is in each of them.
  Expected false when memory runs out between the vector and the table of prefixes.
* C54: the getters over the same heap (`ModelGet.v`), with the names of parameters and getters as in the headers; the
  specification pairs the names (`same_thing`). Stronger postconditions for the constructors (which cells they write), and
  an invariance argument for the time after construction: a composite that is reachable from what the client holds is
  never written again.
* C12: bit arithmetic on `N`, for both widths.
* C13: refutation with two structurally equal annotations; positive theorem for pointer-identical.

IRIs, literals, prefix map

* C14, C15, C17: list lemmas for all byte strings. C16: expected false in general (witness
  `("http://x/a","1b")`); proved for IRIs whose split is canonical.
* C18, C19: model of all constructors; C19 expected false (retain of NULL): witness.
* C20, C23: refinement of the association to a finite map by induction over operations.
  C21: expected false with overwriting; proved for histories without. C22: underflow witness plus
  positive theorem for strings containing ':'.

Ontology

* C24-C30: state = per-type vectors + per-primitive vectors; invariant by induction on histories:
  each primitive's vector is the list of axioms mentioning it. Removal of equal-but-distinct axioms,
  type-only filters, repeated mentions in bulk removal, and signature after removal are expected
  findings (`_refuted`) with positive theorems under the exact side conditions.
* C31, C32: from the same invariant. C33: return-code plumbing; REMOVE expected false.
* C34: set iterator expected false (stops at the first duplicate).

ProtocOWL

* C35: all value spellings per datatype family; expected false for non-canonical spellings; proved
  for the canonical ones, and for all strings whose family uses no compression.
* C36: decoder after encoder, structural induction, arbitrary trailing bytes. C37: whole file.
  C38, C40, C41: stream state machine with both index tables, invariant "reader table = encoded
  part of the writer table". C39: totality of the decoder model with UB as an outcome; expected
  false (missing check in `decode_sub_obj_prop_axiom`), with termination proved for all inputs.

C55: by the same invariant as C39; expected false for `decode_sub_obj_prop_axiom`.

Functional syntax

* C42, C43, C45: character-level lexer model, longest match. C44: token-level printer/parser.
  C46: header; expected false for a version without IRI. C47: expected false (two maps, two policies).
  C56: from C46 and the ontology model, as C37 for ProtocOWL.
* C57, C60, C61: induction over the parser model with undefined behaviour as an outcome; C57 expected
  false (C19). C58: the parser looks at one token after what it has read, so a longer text has the same
  effect up to its closing parenthesis; the lexer is compared on a text and its extension. C62: from C60 and
  the ontology model. C63: a separate relational grammar over tokens (SpecFuncGrammar.v), both directions by
  induction (on derivations, and on the recursion bound of the parser); C64: a separate
  description of tokens and of cutting a text (SpecFuncTokens.v), against the languages of the patterns and the
  longest match of the scanner. C72: a separate description of texts laid out in any way (SpecFuncLayout.v); no token
  contains white space, a bracket or a quotation mark except as its delimiter, so no longer token reaches over layout;
  expected false for comments that end with a carriage return.

C51 (prefix maps and released strings): reference counts of the strings are part of the prefix map
model; expected false after overwriting and `remove_ns`. C52: numerals, expected false on overflow.
C53: reserved vocabulary, from C14.

Readers, writers and start-up (ModelIO.v)

* C59: the prefix maps a client holds, with reference counts, and the pointer kept by the functional writer;
  invariant: the count of a map is what the client owns plus one if the writer points to it. Expected false
  after a header without a prefix map. C65: any writer, as functions of the calls received so far; induction
  over the iteration; expected false for a writer that answers COWL_STOP. C66: from C65; readers are trees of
  handler calls. C67: the globals that hold memory, with failing allocations; expected false on failures.

Load, save, load (C68)

* C68: no new model. The tokens of any text are legal names (from the lexical grammar of C64), so by induction over the
  grammar of C63 everything that is read can be expressed; then the round trip of C56 applies. Expected false for IRIs
  that end in a full stop, non-canonical splits, zero bytes, odd language tags, inverse sub-properties and redefined
  default prefixes: each is refuted by a text.

Index size (C69)

* C69: no new model. Invariant between calls on the lengths of the writer's tables and of the elements waiting to be
  written; one call adds at most two entries for each primitive and the check after it restores the bound. The
  reader's tables are prefixes of the writer's (C40). With room for everything, the tables only grow.

Truncated streams (C70)

* C70: no new model. Every decoding function, run on a part of the input and on the whole, gives the same result unless
  the run on the part ends in the error state, in which nothing more is delivered; by induction over the decoder, with
  both recursion bounds free. Expected false for decode_sub_obj_prop_axiom, which ignores the error state, and for the
  end of the stream, which needs no end frame.

Utilities: C48, C49, C50 by induction / exhaustive case analysis on the finite type enumeration.

## 5. Findings

Each is a theorem ending in `_refuted` (unless noted), with a concrete witness. Where a property
fails, the theorem beside it ending in `_partial` says for which inputs it holds.

* C01, C02, C03: equality of unordered operand lists is inclusion one way plus equal length, so
  `[a, a, b]` equals `[a, b, b]`-like lists only in one direction; equal objects may hash
  differently. Comparing an ordered with an unordered vector depends on the argument order.
* C05: `cowl_table_iterate_primitives` returns the key's code when a value stops the iteration, so
  `cowl_has_primitive` on a table misses primitives that only values mention.
* C06: `cowl_has_primitive` on an interned string iterates over its bytes as if they were fields.
* C08: `cowl_table_equals` answers true as soon as one shared value is met, and dereferences NULL
  when the left value is NULL and the right one is not.
* C10: retaining an object 2^24 times (2^56 with `COWL_HUGE`) wraps the count, and the object is
  freed while still held; a vector added to itself is never freed, and neither is an annotation that
  contains the annotation vector of its own ontology. In the heap model, with real histories as
  witnesses: `cowl_ontology_set_iri` with the IRI the ontology already has, and holds the only reference
  to, releases before it retains (`cowl_ontology.c:427-437`) and reads freed memory; removing an axiom or
  annotation equal to a stored one frees the caller's argument (`cowl_ontology.c:585-597`,
  `cowl_vector.c:193-202`); `cowl_iterate_primitives` on an ontology dereferences the key of an index
  after the axiom behind it was removed and its primitives were freed.
* C12 (theorem `C12_one_reference_too_many`): the overflowing count also flips the flag bit and
  eventually the type.
* C13, C24, C27: removing an axiom or annotation through an equal copy releases the copy, not the
  stored object; for axioms nothing is removed although the call reports success.
  `cowl_ontology_set_iri` with the IRI already stored frees it first.
* C16: `cowl_iri("http://x/a", "1b")` and `cowl_iri_from_string("http://x/a1b")` are different IRIs
  with the same text.
* C19: `cowl_literal("v", rdf:PlainLiteral)` without a language tag dereferences NULL.
* C21: overwriting a prefix leaves a stale entry in the reverse table.
* C22: `cowl_prefix_map_parse_short_iri` on a text without a colon underflows a length.
* C25, C28, C29, C31: an axiom mentioning a primitive twice is stored twice in its index, hence
  delivered twice; filters with only axiom types match nothing; bulk removal of such an axiom reads
  freed memory.
* C30: the signature keeps primitives of removed axioms, through a released key.
* C33: the code of a removal change stops the remaining changes.
* C34: the set-storing iterator stops at the first repeated element.
* C35: ProtocOWL loses the sign of numbers between -1 and 0, the digits of fractions whose reversed
  digits exceed the machine word, whole parts beyond it, and superfluous zeros; typed rdf:PlainLiteral
  values become tagged ones or make the reader dereference NULL.
* C36: cardinalities of 2^31 (2^63) or more are written modulo the machine word.
* C39: six functions of the ProtocOWL reader hand NULL to a constructor; the file `01 13` (hex) suffices.
* C55: a SubObjectPropertyOf axiom with malformed annotations is delivered without them, after the error.
* C37: a version without an ontology IRI is lost; writing an ontology after removing an axiom reads the
  primitives of that axiom, which may have been freed (see C30).
* C38: a ProtocOWL stream does not keep the order between axioms of different types, drops a version
  without an ontology IRI, all but one prefix of each namespace and prefixes of standard namespaces;
  writing before the header dereferences NULL.
* C40: an IRI whose parts `cowl_iri` would split elsewhere (legal by C16) becomes another IRI; with
  `cowl_writer_protocowl_set_encode_anon(false)` a stream may be unreadable.
* C42: a literal value with a zero byte is written up to that byte.
* C43: an IRI whose remainder ends in a full stop is abbreviated although the reader rejects it; an IRI with a
  blank is written as it is and makes the document unreadable; through a stale entry of the prefix map (C21) an
  IRI is written with a prefix that now stands for another namespace, and silently becomes another IRI.
* C44: n-ary constructs with one operand, which the constructors accept, are written and then rejected;
  writing SubObjectPropertyOf with an ObjectInverseOf sub-property treats it as a property chain: undefined behaviour.
* C46: in functional syntax a version without an IRI is read back as the IRI.
* C47: the reader resolves a prefix by its first declaration, or by the default prefix map; the prefix map of the
  ontology by the last declaration.
* C57: a literal of type rdf:PlainLiteral (or rdf:langString) without a language tag makes the functional reader
  dereference NULL.
* C58: what follows a zero byte after the closing parenthesis is ignored; so is what follows any byte from 128 on, where
  char is signed.
* C61: when the handler rejects the ontology IRI it is still given the version, and its error is replaced by a syntax
  error.
* C51: three ways to make a prefix map use a freed string.
* C59: a functional writer given a header without prefix map after one with a prefix map releases the old map but keeps
  using it (`encoder_set_prefix_map` does not assign NULL): the map is released twice, or the new document uses
  prefixes it does not declare.
* C65: a writer that answers COWL_STOP to an axiom gets no further axioms but the footer, and the result is OK.
* C66: a positive code of a reader is lost when reading from a path.
* C67: if `cowl_init` fails for lack of memory, its call to `cowl_deinit` does nothing because `cowl_initialized` is still
  false, so everything created before leaks; a failure while creating a vocabulary dereferences NULL.
* C68: six kinds of text that are read without error but do not survive being saved: an IRI ending in a full stop in a
  namespace with a prefix and a plain literal with an illegal tag cannot be read back; a text that redefines a default
  prefix changes the IRIs of its entities (the reader keeps the default, the writer uses the new binding); a zero byte
  cuts a string off; `ex:1b` with a namespace that ends in a name becomes a different (unequal) entity; an inverse
  property as a sub-property makes the writer dereference a wrong object.
* C70: a ProtocOWL file that cowl wrote and that lost its end may be read without an error (if it was cut between two
  frames: no end frame is required), may deliver a SubObjectPropertyOf axiom without its annotations, or may make the
  reader dereference a null pointer (src/formats/protocowl/reader/cowl_prt_decoder.c:893-913).
* C72: a comment ends only at a line feed (cowl_functional.l:58). OWL lets a carriage return end it, so a text whose lines
  end with carriage returns alone loses everything after its first comment.
* C73: five constructors do not survive running out of memory. `cowl_anon_ind_from_string` retains NULL if the copy of its
  identifier cannot be created (src/cowl_anon_ind.c:63-89), and returns an individual with an empty identifier if the
  copy cannot get its text (src/cowl_string.c:109-118); literals with a language tag (src/cowl_literal.c:80-84) and
  `cowl_vector_ordered_empty` (src/cowl_vector.c:81-85, also used by `cowl_ontology_get_annot`) set a flag of NULL;
  `cowl_has_key_axiom` retains NULL (src/cowl_has_key_axiom.c:16-25). The constructors that take a list of operands leak
  the array (src/cowl_vector.c:25-35).
* C74: `cowl_to_string` gives the same text to a class and a property with the same IRI, to literals that differ only after
  a zero byte, and to two IRIs if a prefix of the global map was bound twice. The text of an n-ary axiom with one operand
  cannot be read.
* C75: converting a text to ProtocOWL changes numbers that are not written in the shortest way ("007"), cardinalities from
  2^31 on (with 32 bits), and abbreviated IRIs such as `ex:1b` whose namespace ends in a name: the reader of texts builds the
  parts `http://x/a1` and `b`, the reader of ProtocOWL builds `http://x/` and `a1b`, and the two IRIs are not equal
  (src/cowl_iri.c:91-145 is not idempotent).
* C77: when the parser discards a quoted string that the grammar does not allow where it stands, its buffer is lost: the
  values of type <UString> have no %destructor (cowl_functional.y:249-268, cowl_functional.l:207-211). A document containing
  `"x"^^rdf:langString` makes the reader access NULL (as in C19, C57).
* C78: the calls with NULL of C39 are the only invalid accesses of the ProtocOWL reader apart from literals whose datatype
  demands a tag: a file of the two bytes 01 13 makes it access NULL.
* C79: if the handler refuses an axiom, an import, an annotation or an IRI, the functional reader returns COWL_ERR_SYNTAX but
  its last error has the code COWL_OK and an empty text (cowl_functional.y:344-378, YYERROR without an error); if it refuses
  a prefix declaration, the error has the handler's code, which is not the one returned; with a Bison that does not
  define YYNOMEM, lack of memory is returned as a syntax error. If the stream fails, the ProtocOWL reader returns the
  stream's code, and its last error has the code COWL_OK and the message of an earlier reading, if there was one:
  decoder_init resets only the code (cowl_prt_decoder.c:40). For the same reason a successful reading after a failed
  one can leave the old message and byte. Contrary to cowl_reader.h:194 the last error is never NULL. If
  cowl_func_yylex_init fails, func_read returns COWL_OK without having read anything (cowl_func_reader.c:34).
* C80: a message that ends in ` (line 3)` cannot be told from a location.
* C81: `cowl_set_reader(NULL)` and `cowl_set_writer(NULL)` release the default and then access NULL, because `cowl_retain`, unlike
  `cowl_release`, does not accept it; a default set before `cowl_init` (which the documentation forbids) is overwritten and never freed.
* C83: if memory runs out when a prefix is put in `_ns_to_prefix` (cowl_prt_index.c:80), the namespace stays in the vector without
  having been retained, and freeing the writer releases it once too often.
* C52: `cowl_str_to_uint` wraps on large numerals, and its error value is also a valid result.

## 6. Assumptions reported by Print Assumptions

Every theorem named in MANIFEST.json prints "Closed under the global context": no axiom is used.
(The checker lists `Coq.ssr.ssrunder.Under_rel` constants: they come with the standard library's
`ssreflect` files, which some imported standard modules load. No theorem depends on them.)
