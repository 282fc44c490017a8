{
 "C04": {
  "note": "`good` (BinSpec.v) spells out the supported values; shared pointers up to renaming of addresses, hash containers up to iteration order."
 },
 "C06": {
  "note": "C06_same_graph needs no renaming: no sequence of accesses distinguishes the graphs; C06_aliasing_refuted: pointers of different types to the same address do not survive."
 },
 "C16": {
  "note": "The refuted claims show that writing does not check versions and that nested classes are written with the version of the outer class."
 },
 "C22": {
  "note": "The lossy cases are the refuted theorems."
 },
 "C23": {
  "note": "The conversions between doubles and decimal text are parameters; C23_doubles_refuted: with RapidJSON's default parsing not all doubles survive."
 },
 "C24": {
  "note": "The exception named in the statement is C24_duplicate_without_errors_refuted."
 },
 "C38": {
  "note": "C38_generated_once_refuted: a class adapted in two headers gets code twice."
 },
 "C48": {
  "note": "The three sources of undefined behaviour named in the statement are the refuted theorems here and in C24."
 },
 "C51": {
  "note": "No strong guarantee: C51_strong_guarantee_refuted."
 },
 "C53": {
  "note": "No strong guarantee: C53_strong_guarantee_refuted."
 },
 "C54": {
  "note": "C54_unmarked_member_refuted and C54_contradicting_marker_refuted show what is not compatible. C54_newer_refused_derived is for classes with base classes, which are read before the version is refused. Members may be accessed more than once (generated code does so for bases of bases) if reading them again replaces what has been read before (repeatable)."
 },
 "C55": {
  "note": "The deviations named in the statement are the _refuted theorems. How conversions between arguments are ranked is simplified (DispatchModel.fit)."
 },
 "C56": {
  "note": "CxxText.v is a hand-written semantics of the C++ subset occurring in generated text (any other text is rejected). A version of 2^63 or more in a marker is printed as a literal without suffix: C56_large_literal_refuted."
 },
 "C57": {
  "note": "Valueless variants (ExBadVariant), indeterminate members and versions of 2^56 or more: the _refuted theorems; cyclic graphs with JSON: C22_cycles_refuted. Memory exhaustion is not modelled."
 },
 "C58": {
  "note": "IDs in binary data are addresses, hence data with shared pointers is only the same up to renaming: C58_addresses_refuted; NUL characters and nested empty optionals are excluded by jgood: C58_nul_refuted, C58_nested_refuted."
 },
 "C59": {
  "note": "Which members are adapted is written by hand in C++, so 'all members in this order' is a hypothesis (with_hana). Versioned classes: C59_versioned_refuted; forgotten inherited members: C59_own_members_only_refuted."
 },
 "C60": {
  "note": "WireSpec.v states the format as a grammar independent of the model; the reader accepts more than the format (C60_only_format_read_refuted: longer notations of numbers)."
 },
 "C61": {
  "note": "Bounds for successful reads; C61_hostile_size_refuted (a failing read of at most 8 bytes leaves a vector of any size below 2^56) and C61_empty_elements_refuted (elements without data) show that the two exceptions are necessary."
 },
 "C62": {
  "note": "Grammar written from RFC 8259 in GrammarSpec.v, independent of the parser; C62_only_rfc_refuted shows what is accepted beyond the RFC (text after NUL, partial byte order marks, invalid UTF-8). Values of doubles are a parameter."
 },
 "C63": {
  "note": "CMake's list expansion (brackets, backslashes, false constants), cmake_parse_arguments, the generator expressions and the tool's command line are modelled. Refuted as stated: relative OUTPUT_DIRECTORY (README example) is written relative to the source directory but declared relative to the binary directory; BINARY_VISIBILITY is misspelled in the function; two input files with one stem make configuring fail; without GENERATORS an empty file is generated; a sole definition named like a false constant is lost; COMPILE_FLAGS with spaces becomes one argument; square brackets merge elements."
 },
 "C64": {
  "note": "C64_size and C64_fromJson for types without multimaps and classes with distinct member names; C64_multimap_refuted (quadratic) and C64_same_names_refuted (2^n objects from n levels) show that both are necessary. C64_errors holds for all types."
 },
 "C65": {
  "note": "C65_no_sharing, C65_single_owner, C65_separate, C65_no_cycles for all types and documents (default member initialisers must not create shared objects: plain_defaults); C65_serialised_again/C65_text_again combine this with C48/C50 and C57. C65_binary_refuted: binary data may contain cycles. C65_when_throwing: the same for runs which throw."
 },
 "C66": {
  "note": "C66_binary/C66_toBinary for all values and heaps; C66_json (unfolded tree) and C66_json_unshared; C66_text; C66_text_again combines C64, C65 and C66, C66_binary_again C61 and C66. The constants for member names, printed dates and printed doubles are hypotheses on the class structure and the external functions. C66_shared_refuted (2^n values for n shared objects) and C66_written_twice_refuted (2^n bytes for n objects with duplicated inherited members) show that the provisos are needed."
 },
 "C67": {
  "note": "Fuel of the model counts nested calls exactly, so '<> RFuel/PFuel' for explicit fuel is a bound on the stack: C67_pull, C67_fromJson, C67_write, C67_toBinary, C67_read, C67_restore, C67_push, C67_document; C67_binary_again and C67_json_again combine with C61/C64/C65. C67_*_unlimited_refuted: no fixed limit. RapidJSON's own parser and writer recursion is outside (parser modelled by its grammar)."
 },
 "C68": {
  "note": "Relational (two-run) proof: C68_read, C68_restore, C68_pull, C68_fromJson for all pairs of allocators; C68_push, C68_toJson, C68_write, C68_toBinary for corresponding values; C68_same_serialisation and C68_binary_again combine them. Hypothesis: keys of sets/maps are compared without looking at addresses; C68_ordered_by_address_refuted shows what happens otherwise."
 },
 "C69": {
  "note": "C69_same_meaning(_fromJson): exact equality for equivalent documents without reordering of map entries; C69_class_members, C69_unknown_members: readable special cases; C69_reordered_means_same, C69_maps, C69_reordered, C69_fromJson, C69_texts: any reordering, with a two-run simulation. Findings: C69_index_refuted (array index in errors depends on the order of map entries), C69_hash_maps_refuted, C69_same_names_refuted (why names have to be distinct)."
 },
 "C70": {
  "note": "HistSpec.v: small-step relation over worlds (variables, objects, error list). C70_stays_proper (invariant of runs), C70_others_unaffected, C70_backup, C70_binary_possible, C70_json_possible, C70_restore_possible, C70_pull_possible, C70_pull_defined, C70_assign_possible. C70_restored_cycle_refuted: restoring from binary data may create a cycle after which pushing does not end."
 },
 "C71": {
  "note": "settled/settling (SettleSpec.v) describe the types and classes: comparison of keys proper, keys without shared pointers or hash containers, less than 255 alternatives, every member read is also written, members accessed several times (generated code for base classes of base classes) are ones which are replaced when read again, newly constructed objects survive. addresses_64: addresses fit in 64 bits. Examples with a cyclic graph and with unsorted duplicate elements in ExamplesSettle.v; C71_case_repeatedly: a class whose base class's base class is read twice, from data with different values. C71_outdated_member_refuted and C71_read_repeatedly_refuted show the conditions on members are needed."
 },
 "C72": {
  "note": "jsettled/jsettling (JSettleSpec.v) describe the types and classes: keys of maps are strings, comparison of elements of sets proper, dates which have been parsed survive being printed, newly constructed objects survive, member names distinct. deserialised: documents pulled one after the other. Examples with wrong members, duplicates and two documents in ExamplesJSettle.v; C72_float_refuted and C72_overflow_refuted show the limits."
 },
 "C73": {
  "note": "AgainSpec.v: same_outcome, considered (which types, in three modes), keyed (maps have one element per key), distinct_names, complete. The document for C73_again is required to have distinct names within objects; the restrictions on types are necessary (refuted examples in ExamplesAgain.v)."
 },
 "C74": {
  "note": "NumberSpec.v describes doubles by the real numbers they stand for, the numbers denoted by texts, `nearest` and `roundings`. Uses the real numbers of the standard library and Flocq: the theorems depend on the standard library's axioms for real numbers (listed in DESIGN.md, section 4). Beyond n < 2^53 the result need not be the nearest double (C74_nearest_beyond_refuted), and zero with a large exponent is refused (C74_refused_only_if_large_refuted)."
 },
 "C75": {
  "note": "PrevSpec.v states which types are overwritten and which reads are repeatable; members which are accessed repeatedly (base classes of base classes) must be of a type which is overwritten (once_or_overwritten; met by C75_case_repeatedly). Multisets grow (C75_multiset_refuted), NaN keys accumulate in hash sets (C75_nan_refuted), shared pointers refer to another object (C75_shared_refuted) and sets within vectors keep elements (C75_nested_set_refuted)."
 },
 "C76": {
  "note": "The hypotheses binary_program/json_program (FullSpec.v) say that the functions in the text read as C++ (C56) are what the classes' calls of one another run. A member of the same name in base and derived class gets the base's value (C76_names_apart_refuted). In hierarchies with three levels the generator writes members repeatedly (C39_bases_once_refuted, C37_three_levels_refuted); both theorems cover them (revisited, rereadable/repullable)."
 },
 "C77": {
  "note": "C57_push_succeeds assumes that the whole memory has no cycles; C77_ends_iff needs and gets this for visited objects only. C77_returned_no_cycle and C77_visited_serialised assume nothing of classes, types and memory."
 },
 "C78": {
  "note": "Numbers are different: 12 is a beginning of 123 (C78_numbers_refuted). A text of which the end has been replaced by the end of another text can be accepted (C78_torn_refuted)."
 },
 "C79": {
  "note": "What does matter: const members to JSON (C79_const_json_refuted), and the order of the definitions of base classes: exchanging two of them changes the binary format of the classes derived from both, and data written before is restored with members exchanged (C79_declaration_order_refuted)."
 },
 "C80": {
  "note": "Each call has its own heap; what happens in between is not modelled any further, so anything may. proper: the hypotheses of C04 for each call. snapshot: the content of each object at the call which wrote it first. Example: three calls with a node modified, one created and two destroyed in between. C80_reused_address_refuted (the second object is lost silently), C80_types_disagree_refuted and C80_fresh_deserializer_refuted show what does not hold."
 }
}