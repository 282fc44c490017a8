{
 "claims": [
  {
   "property": "C01",
   "status": "proved",
   "theorems": [
    "C01_varint_round_trip"
   ],
   "note": ""
  },
  {
   "property": "C02",
   "status": "proved",
   "theorems": [
    "C02_varint_arbitrary_bytes",
    "C02_varint_value"
   ],
   "note": ""
  },
  {
   "property": "C03",
   "status": "proved",
   "theorems": [
    "C03_scalars",
    "C03_arbitrary_bytes",
    "C03_flags"
   ],
   "note": ""
  },
  {
   "property": "C04",
   "status": "proved",
   "theorems": [
    "C04_binary_round_trip",
    "C04_binary_round_trip_exact",
    "C04_to_and_from_binary",
    "C04_from_binary"
   ],
   "note": "`good` (BinSpec.v) spells out the supported values; shared pointers up to renaming of addresses, hash containers up to iteration order."
  },
  {
   "property": "C05",
   "status": "proved",
   "theorems": [
    "C05_self_delimiting"
   ],
   "note": ""
  },
  {
   "property": "C06",
   "status": "proved",
   "theorems": [
    "C04_binary_round_trip",
    "C06_same_graph",
    "C06_aliasing_refuted"
   ],
   "note": "C06_same_graph needs no renaming: no sequence of accesses distinguishes the graphs; C06_aliasing_refuted: pointers of different types to the same address do not survive."
  },
  {
   "property": "C07",
   "status": "proved",
   "theorems": [
    "C07_shared_written_once",
    "C07_further_occurrence"
   ],
   "note": ""
  },
  {
   "property": "C08",
   "status": "proved",
   "theorems": [
    "C04_binary_round_trip",
    "C08_write_terminates"
   ],
   "note": ""
  },
  {
   "property": "C09",
   "status": "proved",
   "theorems": [
    "C09_pointer_ids"
   ],
   "note": ""
  },
  {
   "property": "C10",
   "status": "proved",
   "theorems": [
    "C10_arbitrary_bytes_safe"
   ],
   "note": ""
  },
  {
   "property": "C11",
   "status": "proved",
   "theorems": [
    "C11_dangling_reference"
   ],
   "note": ""
  },
  {
   "property": "C12",
   "status": "proved",
   "theorems": [
    "C12_variant_index"
   ],
   "note": ""
  },
  {
   "property": "C13",
   "status": "proved",
   "theorems": [
    "C13_truncated",
    "C13_accepted_prefix"
   ],
   "note": ""
  },
  {
   "property": "C14",
   "status": "proved",
   "theorems": [
    "C14_non_fresh",
    "C14_set_not_replaced_refuted"
   ],
   "note": ""
  },
  {
   "property": "C15",
   "status": "proved",
   "theorems": [
    "C15_visible_iff_in_range",
    "C15_members_written",
    "C15_others_no_influence",
    "C15_restored_iff_written",
    "C15_class_round_trip",
    "C15_invisible_untouched"
   ],
   "note": ""
  },
  {
   "property": "C16",
   "status": "proved",
   "theorems": [
    "C16_unsupported_version",
    "C16_refused_untouched",
    "C16_nested_default_version_refuted",
    "C16_write_unchecked_refuted"
   ],
   "note": "The refuted claims show that writing does not check versions and that nested classes are written with the version of the outer class."
  },
  {
   "property": "C17",
   "status": "proved",
   "theorems": [
    "C17_default_version",
    "C17_default_is_max"
   ],
   "note": ""
  },
  {
   "property": "C18",
   "status": "proved",
   "theorems": [
    "C18_version_reach",
    "C18_read_reach"
   ],
   "note": ""
  },
  {
   "property": "C19",
   "status": "proved",
   "theorems": [
    "C19_writer_members",
    "C19_reader_members",
    "C19_selection_unique",
    "C19_until_zero_refuted"
   ],
   "note": ""
  },
  {
   "property": "C20",
   "status": "proved",
   "theorems": [
    "C20_same_accesses",
    "C20_writer_is_class_program",
    "C20_reader_is_class_program",
    "C20_generated_round_trips",
    "C20_one_friend_refuted"
   ],
   "note": ""
  },
  {
   "property": "C21",
   "status": "proved",
   "theorems": [
    "C21_binary_balanced",
    "C21_json_balanced",
    "C21_conditions_closed"
   ],
   "note": ""
  },
  {
   "property": "C22",
   "status": "proved",
   "theorems": [
    "C22_round_trip",
    "C22_fromJson_round_trip",
    "C22_flt_max_refuted",
    "C22_nested_optional_refuted",
    "C22_valueless_refuted",
    "C22_sharing_lost_refuted",
    "C22_cycles_refuted"
   ],
   "note": "The lossy cases are the refuted theorems."
  },
  {
   "property": "C23",
   "status": "proved",
   "theorems": [
    "C23_round_trip",
    "C23_exact",
    "C23_without_doubles",
    "C23_strings_and_integers",
    "C23_text_is_cstring",
    "C23_value_round_trip",
    "C23_doubles_refuted",
    "C23_integral_doubles_refuted"
   ],
   "note": "The conversions between doubles and decimal text are parameters; C23_doubles_refuted: with RapidJSON's default parsing not all doubles survive."
  },
  {
   "property": "C24",
   "status": "proved",
   "theorems": [
    "C24_errors_do_not_matter",
    "C24_duplicate_without_errors_refuted"
   ],
   "note": "The exception named in the statement is C24_duplicate_without_errors_refuted."
  },
  {
   "property": "C25",
   "status": "proved",
   "theorems": [
    "C25_mismatch",
    "C25_mismatch_fromJson",
    "C25_dates",
    "C25_date_strings",
    "C25_conforming",
    "C25_exact_errors",
    "C25_exact_errors_fromJson",
    "C25_number_is_no_number_refuted",
    "C25_date_two_errors_refuted"
   ],
   "note": ""
  },
  {
   "property": "C26",
   "status": "proved",
   "theorems": [
    "C26_context_restored",
    "C26_index_lost_refuted",
    "C26_stale_context_refuted"
   ],
   "note": ""
  },
  {
   "property": "C27",
   "status": "proved",
   "theorems": [
    "C27_throw_on",
    "C27_variants_never_throw"
   ],
   "note": ""
  },
  {
   "property": "C28",
   "status": "proved",
   "theorems": [
    "C28_only_first_matters",
    "C28_order_irrelevant",
    "C28_unknown_ignored",
    "C28_first_duplicate",
    "C28_members_updated",
    "C28_shadowed_members_refuted"
   ],
   "note": ""
  },
  {
   "property": "C29",
   "status": "proved",
   "theorems": [
    "C29_sequence",
    "C29_previous_content_discarded",
    "C29_multiset",
    "C29_set"
   ],
   "note": ""
  },
  {
   "property": "C30",
   "status": "proved",
   "theorems": [
    "C30_map",
    "C30_map_keys",
    "C30_multimap"
   ],
   "note": ""
  },
  {
   "property": "C31",
   "status": "proved",
   "theorems": [
    "C31_wrong_size",
    "C31_tuple",
    "C31_pair"
   ],
   "note": ""
  },
  {
   "property": "C32",
   "status": "proved",
   "theorems": [
    "C32_pushed",
    "C32_pulled",
    "C32_invalid_object",
    "C32_invalid_index"
   ],
   "note": ""
  },
  {
   "property": "C33",
   "status": "proved",
   "theorems": [
    "C33_null_resets",
    "C33_empty_is_null",
    "C33_others_engage"
   ],
   "note": ""
  },
  {
   "property": "C34",
   "status": "proved",
   "theorems": [
    "C34_integer",
    "C34_integer_from_double",
    "C34_bytes_and_enums_wrap",
    "C34_pushed_exactly",
    "C34_doubles",
    "C34_float_range"
   ],
   "note": ""
  },
  {
   "property": "C35",
   "status": "proved",
   "theorems": [
    "C35_expected_type",
    "C35_exceptions_refuted"
   ],
   "note": ""
  },
  {
   "property": "C36",
   "status": "proved",
   "theorems": [
    "C36_pushed_completely",
    "C36_pulled_up_to_nul",
    "C36_map_keys",
    "C36_nul_refuted",
    "C36_map_keys_collide_refuted"
   ],
   "note": ""
  },
  {
   "property": "C37",
   "status": "proved",
   "theorems": [
    "C37_members_pushed",
    "C37_generated_names",
    "C37_unique_names",
    "C37_three_levels_refuted",
    "C37_push_is_class_program",
    "C37_pull_is_class_program",
    "C37_pulled_is_pushed"
   ],
   "note": ""
  },
  {
   "property": "C38",
   "status": "proved",
   "theorems": [
    "C38_generated_iff_wanted",
    "C38_declaration_order",
    "C38_two_headers",
    "C38_relevant_base",
    "C38_generated_once_refuted"
   ],
   "note": "C38_generated_once_refuted: a class adapted in two headers gets code twice."
  },
  {
   "property": "C39",
   "status": "proved",
   "theorems": [
    "C39_base_classes",
    "C39_grand_parents_directly",
    "C39_bases_once_refuted"
   ],
   "note": ""
  },
  {
   "property": "C40",
   "status": "proved",
   "theorems": [
    "C40_member_access"
   ],
   "note": ""
  },
  {
   "property": "C41",
   "status": "proved",
   "theorems": [
    "C41_success",
    "C41_forwarded",
    "C41_engine",
    "C41_reported",
    "C41_notes_refuted"
   ],
   "note": ""
  },
  {
   "property": "C42",
   "status": "proved",
   "theorems": [
    "C42_arguments",
    "C42_every_option",
    "C42_semicolon_refuted",
    "C42_second_factory_refuted"
   ],
   "note": ""
  },
  {
   "property": "C43",
   "status": "proved",
   "theorems": [
    "C43_complete_iff_finite",
    "C43_truncated",
    "C43_incomplete_without_error_refuted"
   ],
   "note": ""
  },
  {
   "property": "C44",
   "status": "proved",
   "theorems": [
    "C44_sizes",
    "C44_long_strings"
   ],
   "note": ""
  },
  {
   "property": "C45",
   "status": "proved",
   "theorems": [
    "C45_names",
    "C45_different",
    "C45_index_hidden_refuted",
    "C45_quotes_refuted"
   ],
   "note": ""
  },
  {
   "property": "C46",
   "status": "proved",
   "theorems": [
    "C46_grouped",
    "C46_distinct_keys",
    "C46_restored",
    "C46_nul_refuted"
   ],
   "note": ""
  },
  {
   "property": "C47",
   "status": "proved",
   "theorems": [
    "C47_terminates"
   ],
   "note": ""
  },
  {
   "property": "C48",
   "status": "proved",
   "theorems": [
    "C48_type_safe",
    "C48_no_undefined_behaviour",
    "C48_set_of_scalars_refuted",
    "C48_out_of_range_refuted"
   ],
   "note": "The three sources of undefined behaviour named in the statement are the refuted theorems here and in C24."
  },
  {
   "property": "C49",
   "status": "proved",
   "theorems": [
    "C49_exit_code",
    "C49_output",
    "C49_all_by_default_refuted",
    "C49_truncated_refuted"
   ],
   "note": ""
  },
  {
   "property": "C50",
   "status": "proved",
   "theorems": [
    "C50_parse_total",
    "C50_any_text",
    "C50_terminates",
    "C50_trailing_garbage_refuted"
   ],
   "note": ""
  },
  {
   "property": "C51",
   "status": "proved",
   "theorems": [
    "C51_exception_safe",
    "C51_same_reader",
    "C51_same_restore",
    "C51_strong_guarantee_refuted"
   ],
   "note": "No strong guarantee: C51_strong_guarantee_refuted."
  },
  {
   "property": "C52",
   "status": "proved",
   "theorems": [
    "C52_cut_anywhere",
    "C52_truncated_serialization",
    "C52_cut_in_sequence"
   ],
   "note": ""
  },
  {
   "property": "C53",
   "status": "proved",
   "theorems": [
    "C53_exception_safe",
    "C53_same_deserialisation",
    "C53_members_in_order",
    "C53_stop_in_sequence",
    "C53_strong_guarantee_refuted"
   ],
   "note": "No strong guarantee: C53_strong_guarantee_refuted."
  },
  {
   "property": "C54",
   "status": "proved",
   "theorems": [
    "C54_value_of_other_program",
    "C54_object_of_other_program",
    "C54_previous_versions_kept",
    "C54_generated_code_compatible",
    "C54_written_for_older_program",
    "C54_newer_refused",
    "C54_newer_refused_derived",
    "C54_sheet_refused",
    "C54_unmarked_member_refuted",
    "C54_contradicting_marker_refuted"
   ],
   "note": "C54_unmarked_member_refuted and C54_contradicting_marker_refuted show what is not compatible. C54_newer_refused_derived is for classes with base classes, which are read before the version is refused. Members may be accessed more than once (generated code does so for bases of bases) if reading them again replaces what has been read before (repeatable)."
  },
  {
   "property": "C55",
   "status": "proved",
   "theorems": [
    "C55_read_exactly",
    "C55_write_exactly",
    "C55_push_exactly",
    "C55_pull_exactly",
    "C55_read_overload",
    "C55_write_overload",
    "C55_push_overload",
    "C55_pull_overload",
    "C55_readable_is_writable",
    "C55_pullable_is_pushable",
    "C55_document_overload",
    "C55_parse_overload",
    "C55_toJson_offered",
    "C55_view_written_as_string",
    "C55_without_size",
    "C55_forward_list",
    "C55_pointer_to_variant_push_refuted",
    "C55_toJson_string_refuted",
    "C55_serializable_iterable_refuted",
    "C55_vector_bool_refuted",
    "C55_unsupported_refuted",
    "C55_short_integers_refuted"
   ],
   "note": "The deviations named in the statement are the _refuted theorems. How conversions between arguments are ranked is simplified (DispatchModel.fit)."
  },
  {
   "property": "C56",
   "status": "proved",
   "theorems": [
    "C56_no_classes_no_text",
    "C56_binary_file",
    "C56_json_file",
    "C56_writer_calls",
    "C56_reader_calls",
    "C56_push_calls",
    "C56_pull_calls",
    "C56_text_writes",
    "C56_text_reads",
    "C56_text_pushes",
    "C56_text_pulls",
    "C56_large_literal_refuted"
   ],
   "note": "CxxText.v is a hand-written semantics of the C++ subset occurring in generated text (any other text is rejected). A version of 2^63 or more in a marker is printed as a literal without suffix: C56_large_literal_refuted."
  },
  {
   "property": "C57",
   "status": "proved",
   "theorems": [
    "C57_write_succeeds",
    "C57_write_outcome",
    "C57_toBinary_succeeds",
    "C57_written_again",
    "C57_push_succeeds",
    "C57_toJson_succeeds",
    "C57_valueless_refuted",
    "C57_indeterminate_refuted",
    "C57_version_refuted"
   ],
   "note": "Valueless variants (ExBadVariant), indeterminate members and versions of 2^56 or more: the _refuted theorems; cyclic graphs with JSON: C22_cycles_refuted. Memory exhaustion is not modelled."
  },
  {
   "property": "C58",
   "status": "proved",
   "theorems": [
    "C58_pushed_again",
    "C58_document_again",
    "C58_text_again",
    "C58_json_injective",
    "C58_binary_injective",
    "C58_binary_again",
    "C58_addresses_refuted",
    "C58_nul_refuted",
    "C58_nested_refuted"
   ],
   "note": "IDs in binary data are addresses, hence data with shared pointers is only the same up to renaming: C58_addresses_refuted; NUL characters and nested empty optionals are excluded by jgood: C58_nul_refuted, C58_nested_refuted."
  },
  {
   "property": "C59",
   "status": "proved",
   "theorems": [
    "C59_same_document",
    "C59_same_toJson",
    "C59_same_pulled",
    "C59_same_fromJson",
    "C59_no_class_in_errors",
    "C59_same_binary",
    "C59_same_toBinary",
    "C59_same_read",
    "C59_same_restored",
    "C59_hana_version",
    "C59_versioned_refuted",
    "C59_own_members_only_refuted"
   ],
   "note": "Which members are adapted is written by hand in C++, so 'all members in this order' is a hypothesis (with_hana). Versioned classes: C59_versioned_refuted; forgotten inherited members: C59_own_members_only_refuted."
  },
  {
   "property": "C60",
   "status": "proved",
   "theorems": [
    "C60_written_has_format",
    "C60_toBinary_has_format",
    "C60_format_is_written",
    "C60_format_unique",
    "C60_format_is_read",
    "C60_only_format_read_refuted"
   ],
   "note": "WireSpec.v states the format as a grammar independent of the model; the reader accepts more than the format (C60_only_format_read_refuted: longer notations of numbers)."
  },
  {
   "property": "C61",
   "status": "proved",
   "theorems": [
    "C61_size",
    "C61_restore",
    "C61_sizes",
    "C61_objects",
    "C61_objects_restored",
    "C61_not_empty",
    "C61_sequence",
    "C61_set",
    "C61_map",
    "C61_hostile_size_refuted",
    "C61_empty_elements_refuted"
   ],
   "note": "Bounds for successful reads; C61_hostile_size_refuted (a failing read of at most 8 bytes leaves a vector of any size below 2^56) and C61_empty_elements_refuted (elements without data) show that the two exceptions are necessary."
  },
  {
   "property": "C62",
   "status": "proved",
   "theorems": [
    "C62_accepted_iff_json",
    "C62_refused_iff_not_json",
    "C62_unambiguous",
    "C62_fromJson",
    "C62_notation_irrelevant",
    "C62_written_is_json",
    "C62_nonfinite_not_json",
    "C62_toJson_is_json",
    "C62_only_rfc_refuted"
   ],
   "note": "Grammar written from RFC 8259 in GrammarSpec.v, independent of the parser; C62_only_rfc_refuted shows what is accepted beyond the RFC (text after NUL, partial byte order marks, invalid UTF-8). Values of doubles are a parameter."
  },
  {
   "property": "C63",
   "status": "proved",
   "theorems": [
    "C63_configures",
    "C63_commands",
    "C63_output_lists",
    "C63_written_where_declared",
    "C63_default_generators_refuted",
    "C63_relative_directory_refuted",
    "C63_same_name_refuted",
    "C63_binary_visibility_refuted",
    "C63_definition_lost_refuted",
    "C63_flags_refuted",
    "C63_bracket_refuted"
   ],
   "note": "CMake's list expansion (brackets, backslashes, false constants), cmake_parse_arguments, the generator expressions and the tool's command line are modelled. Refuted as stated: relative OUTPUT_DIRECTORY (README example) is written relative to the source directory but declared relative to the binary directory; BINARY_VISIBILITY is misspelled in the function; two input files with one stem make configuring fail; without GENERATORS an empty file is generated; a sole definition named like a false constant is lost; COMPILE_FLAGS with spaces becomes one argument; square brackets merge elements."
  },
  {
   "property": "C64",
   "status": "proved",
   "theorems": [
    "C64_size",
    "C64_errors",
    "C64_document",
    "C64_fromJson",
    "C64_multimap_refuted",
    "C64_same_names_refuted"
   ],
   "note": "C64_size and C64_fromJson for types without multimaps and classes with distinct member names; C64_multimap_refuted (quadratic) and C64_same_names_refuted (2^n objects from n levels) show that both are necessary. C64_errors holds for all types."
  },
  {
   "property": "C65",
   "status": "proved",
   "theorems": [
    "C65_when_throwing",
    "C65_no_sharing",
    "C65_single_owner",
    "C65_separate",
    "C65_no_cycles",
    "C65_serialised_again",
    "C65_text_again",
    "C65_binary_refuted"
   ],
   "note": "C65_no_sharing, C65_single_owner, C65_separate, C65_no_cycles for all types and documents (default member initialisers must not create shared objects: plain_defaults); C65_serialised_again/C65_text_again combine this with C48/C50 and C57. C65_binary_refuted: binary data may contain cycles. C65_when_throwing: the same for runs which throw."
  },
  {
   "property": "C66",
   "status": "proved",
   "theorems": [
    "C66_binary",
    "C66_toBinary",
    "C66_json",
    "C66_json_unshared",
    "C66_text",
    "C66_text_again",
    "C66_binary_again",
    "C66_shared_refuted",
    "C66_written_twice_refuted"
   ],
   "note": "C66_binary/C66_toBinary for all values and heaps; C66_json (unfolded tree) and C66_json_unshared; C66_text; C66_text_again combines C64, C65 and C66, C66_binary_again C61 and C66. The constants for member names, printed dates and printed doubles are hypotheses on the class structure and the external functions. C66_shared_refuted (2^n values for n shared objects) and C66_written_twice_refuted (2^n bytes for n objects with duplicated inherited members) show that the provisos are needed."
  },
  {
   "property": "C67",
   "status": "proved",
   "theorems": [
    "C67_pull",
    "C67_fromJson",
    "C67_write",
    "C67_toBinary",
    "C67_read",
    "C67_restore",
    "C67_push",
    "C67_document",
    "C67_binary_again",
    "C67_json_again",
    "C67_json_unlimited_refuted",
    "C67_binary_unlimited_refuted",
    "C67_serialise_unlimited_refuted"
   ],
   "note": "Fuel of the model counts nested calls exactly, so '<> RFuel/PFuel' for explicit fuel is a bound on the stack: C67_pull, C67_fromJson, C67_write, C67_toBinary, C67_read, C67_restore, C67_push, C67_document; C67_binary_again and C67_json_again combine with C61/C64/C65. C67_*_unlimited_refuted: no fixed limit. RapidJSON's own parser and writer recursion is outside (parser modelled by its grammar)."
  },
  {
   "property": "C68",
   "status": "proved",
   "theorems": [
    "C68_read",
    "C68_restore",
    "C68_pull",
    "C68_fromJson",
    "C68_push",
    "C68_toJson",
    "C68_write",
    "C68_toBinary",
    "C68_same_serialisation",
    "C68_binary_again",
    "C68_ordered_by_address_refuted"
   ],
   "note": "Relational (two-run) proof: C68_read, C68_restore, C68_pull, C68_fromJson for all pairs of allocators; C68_push, C68_toJson, C68_write, C68_toBinary for corresponding values; C68_same_serialisation and C68_binary_again combine them. Hypothesis: keys of sets/maps are compared without looking at addresses; C68_ordered_by_address_refuted shows what happens otherwise."
  },
  {
   "property": "C69",
   "status": "proved",
   "theorems": [
    "C69_same_meaning",
    "C69_same_meaning_fromJson",
    "C69_class_members",
    "C69_unknown_members",
    "C69_reordered_means_same",
    "C69_maps",
    "C69_reordered",
    "C69_fromJson",
    "C69_texts",
    "C69_index_refuted",
    "C69_hash_maps_refuted",
    "C69_same_names_refuted"
   ],
   "note": "C69_same_meaning(_fromJson): exact equality for equivalent documents without reordering of map entries; C69_class_members, C69_unknown_members: readable special cases; C69_reordered_means_same, C69_maps, C69_reordered, C69_fromJson, C69_texts: any reordering, with a two-run simulation. Findings: C69_index_refuted (array index in errors depends on the order of map entries), C69_hash_maps_refuted, C69_same_names_refuted (why names have to be distinct)."
  },
  {
   "property": "C70",
   "status": "proved",
   "theorems": [
    "C70_stays_proper",
    "C70_others_unaffected",
    "C70_backup",
    "C70_binary_possible",
    "C70_json_possible",
    "C70_restore_possible",
    "C70_pull_possible",
    "C70_pull_defined",
    "C70_assign_possible",
    "C70_restored_cycle_refuted"
   ],
   "note": "HistSpec.v: small-step relation over worlds (variables, objects, error list). C70_stays_proper (invariant of runs), C70_others_unaffected, C70_backup, C70_binary_possible, C70_json_possible, C70_restore_possible, C70_pull_possible, C70_pull_defined, C70_assign_possible. C70_restored_cycle_refuted: restoring from binary data may create a cycle after which pushing does not end."
  },
  {
   "property": "C71",
   "status": "proved",
   "theorems": [
    "C71_read_again",
    "C71_new_variable",
    "C71_same_graph",
    "C71_normal_form",
    "C71_restore_again",
    "C71_from_binary_again",
    "C71_sets_in_order",
    "C71_maps_in_order",
    "C71_outdated_member_refuted",
    "C71_read_repeatedly_refuted"
   ],
   "note": "settled/settling (SettleSpec.v) describe the types and classes: comparison of keys proper, keys without shared pointers or hash containers, less than 255 alternatives, every member read is also written, members accessed several times (generated code for base classes of base classes) are ones which are replaced when read again, newly constructed objects survive. addresses_64: addresses fit in 64 bits. Examples with a cyclic graph and with unsorted duplicate elements in ExamplesSettle.v; C71_case_repeatedly: a class whose base class's base class is read twice, from data with different values. C71_outdated_member_refuted and C71_read_repeatedly_refuted show the conditions on members are needed."
  },
  {
   "property": "C72",
   "status": "proved",
   "theorems": [
    "C72_pulled_again",
    "C72_new_variable",
    "C72_normal_form",
    "C72_fromJson_again",
    "C72_text_again",
    "C72_float_refuted",
    "C72_overflow_refuted"
   ],
   "note": "jsettled/jsettling (JSettleSpec.v) describe the types and classes: keys of maps are strings, comparison of elements of sets proper, dates which have been parsed survive being printed, newly constructed objects survive, member names distinct. deserialised: documents pulled one after the other. Examples with wrong members, duplicates and two documents in ExamplesJSettle.v; C72_float_refuted and C72_overflow_refuted show the limits."
  },
  {
   "property": "C73",
   "status": "proved",
   "theorems": [
    "C73_same_outcome",
    "C73_value",
    "C73_again",
    "C73_complete_document",
    "C73_multimap_refuted",
    "C73_shared_refuted",
    "C73_map_not_determined_refuted"
   ],
   "note": "AgainSpec.v: same_outcome, considered (which types, in three modes), keyed (maps have one element per key), distinct_names, complete. The document for C73_again is required to have distinct names within objects; the restrictions on types are necessary (refuted examples in ExamplesAgain.v)."
  },
  {
   "property": "C74",
   "status": "proved",
   "theorems": [
    "C74_correctly_rounded",
    "C74_roundings",
    "C74_relative_error",
    "C74_too_large",
    "C74_fromJson",
    "C74_doubles_survive",
    "C74_documents_survive",
    "C74_integers",
    "C74_float_pushed",
    "C74_float_pulled",
    "C74_float_fromJson",
    "C74_nearest_beyond_refuted",
    "C74_refused_only_if_large_refuted"
   ],
   "note": "NumberSpec.v describes doubles by the real numbers they stand for, the numbers denoted by texts, `nearest` and `roundings`. Uses the real numbers of the standard library and Flocq: the theorems depend on the standard library's axioms for real numbers (listed in DESIGN.md, section 4). Beyond n < 2^53 the result need not be the nearest double (C74_nearest_beyond_refuted), and zero with a large exponent is refused (C74_refused_only_if_large_refuted)."
  },
  {
   "property": "C75",
   "status": "proved",
   "theorems": [
    "C75_same_course",
    "C75_restore",
    "C75_determined",
    "C75_memory",
    "C75_again",
    "C75_restore_again",
    "C75_last_data",
    "C75_multiset_refuted",
    "C75_nan_refuted",
    "C75_shared_refuted",
    "C75_nested_set_refuted"
   ],
   "note": "PrevSpec.v states which types are overwritten and which reads are repeatable; members which are accessed repeatedly (base classes of base classes) must be of a type which is overwritten (once_or_overwritten; met by C75_case_repeatedly). Multisets grow (C75_multiset_refuted), NaN keys accumulate in hash sets (C75_nan_refuted), shared pointers refer to another object (C75_shared_refuted) and sets within vectors keep elements (C75_nested_set_refuted)."
  },
  {
   "property": "C76",
   "status": "proved",
   "theorems": [
    "C76_binary",
    "C76_json",
    "C76_parent",
    "C76_child",
    "C76_jparent",
    "C76_jchild",
    "C76_names_apart_refuted"
   ],
   "note": "The hypotheses binary_program/json_program (FullSpec.v) say that the functions in the text read as C++ (C56) are what the classes' calls of one another run. A member of the same name in base and derived class gets the base's value (C76_names_apart_refuted). In hierarchies with three levels the generator writes members repeatedly (C39_bases_once_refuted, C37_three_levels_refuted); both theorems cover them (revisited, rereadable/repullable)."
  },
  {
   "property": "C77",
   "status": "proved",
   "theorems": [
    "C77_returned_no_cycle",
    "C77_visited_serialised",
    "C77_ends_iff",
    "C77_cycle_overflows",
    "C77_toJson_ends_iff",
    "C77_binary_needs_no_cycle_refuted"
   ],
   "note": "C57_push_succeeds assumes that the whole memory has no cycles; C77_ends_iff needs and gets this for visited objects only. C77_returned_no_cycle and C77_visited_serialised assume nothing of classes, types and memory."
  },
  {
   "property": "C78",
   "status": "proved",
   "theorems": [
    "C78_cut_refused",
    "C78_never_another",
    "C78_fromJson",
    "C78_written_cut",
    "C78_toJson_cut",
    "C78_followed_iff",
    "C78_two_documents",
    "C78_overwritten",
    "C78_numbers_refuted",
    "C78_two_numbers_refuted",
    "C78_after_nul_refuted",
    "C78_torn_refuted"
   ],
   "note": "Numbers are different: 12 is a beginning of 123 (C78_numbers_refuted). A text of which the end has been replaced by the end of another text can be accepted (C78_torn_refuted)."
  },
  {
   "property": "C79",
   "status": "proved",
   "theorems": [
    "C79_irrelevant_declarations",
    "C79_further_headers",
    "C79_further_classes",
    "C79_same_functions",
    "C79_listed_classes",
    "C79_methods_binary",
    "C79_methods_json",
    "C79_base_order",
    "C79_example_irrelevant",
    "C79_example_sibling",
    "C79_example_methods",
    "C79_const_json_refuted",
    "C79_declaration_order_refuted"
   ],
   "note": "What does matter: const members to JSON (C79_const_json_refuted), and the order of the definitions of base classes: exchanging two of them changes the binary format of the classes derived from both, and data written before is restored with members exchanged (C79_declaration_order_refuted)."
  },
  {
   "property": "C80",
   "status": "proved",
   "theorems": [
    "C80_session",
    "C80_shared_between_calls",
    "C80_content_when_first_written",
    "C80_not_modified",
    "C80_used_deserializer",
    "C80_reused_address_refuted",
    "C80_types_disagree_refuted",
    "C80_fresh_deserializer_refuted"
   ],
   "note": "Each call has its own heap; what happens in between is not modelled any further, so anything may. proper: the hypotheses of C04 for each call. snapshot: the content of each object at the call which wrote it first. Example: three calls with a node modified, one created and two destroyed in between. C80_reused_address_refuted (the second object is lost silently), C80_types_disagree_refuted and C80_fresh_deserializer_refuted show what does not hold."
  }
 ]
}