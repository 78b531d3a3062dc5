{
 "claims": [
  {
   "property": "C01",
   "status": "proved",
   "theorems": [
    "C01_wire_format"
   ],
   "note": ""
  },
  {
   "property": "C02",
   "status": "proved",
   "theorems": [
    "C02_misconfigured_swaps",
    "C02_documented_format_when_misconfigured_refuted"
   ],
   "note": "The property says the documented format fails under misconfiguration; the _refuted theorem is that part of the claim."
  },
  {
   "property": "C03",
   "status": "proved",
   "theorems": [
    "C03_write_read_roundtrip",
    "C03_write_read_front"
   ],
   "note": ""
  },
  {
   "property": "C04",
   "status": "proved",
   "theorems": [
    "C04_write_at_all_or_nothing",
    "C04_write_all_or_nothing",
    "C04_encoding_exists"
   ],
   "note": ""
  },
  {
   "property": "C05",
   "status": "proved",
   "theorems": [
    "C05_read_at_exact",
    "C05_read_exact",
    "C05_read_range_at_exact",
    "C05_read_range_exact",
    "C05_decoding_unique",
    "C05_reads_never_undefined",
    "C05_other_bytes_irrelevant",
    "C05_other_bytes_irrelevant_elsewhere"
   ],
   "note": "Types whose every representation is a value; C112 has the others."
  },
  {
   "property": "C06",
   "status": "proved",
   "theorems": [
    "C06_try_read_agrees",
    "C06_try_read_at_agrees"
   ],
   "note": ""
  },
  {
   "property": "C07",
   "status": "partial",
   "theorems": [
    "C07_try_read_range_at_agrees_partial",
    "C07_try_read_range_agrees",
    "C07_empty_range_at_end_refuted",
    "C07_empty_range_partial"
   ],
   "note": "False for an empty range at position = size (read succeeds, try_read reports insufficient_buffer): refuted there, proved for every non-empty range, and C07_empty_range_partial gives both results for an empty range at every position."
  },
  {
   "property": "C08",
   "status": "proved",
   "theorems": [
    "C08_try_read_prefix"
   ],
   "note": ""
  },
  {
   "property": "C09",
   "status": "partial",
   "theorems": [
    "C09_try_read_at_prefix_partial",
    "C09_try_read_at_wraps_refuted",
    "C09_try_read_at_exact_partial"
   ],
   "note": "Refuted: position + i-th offset wraps past 2^64 and a later element reads the front of the buffer. Proved when position + total size < 2^64; C09_try_read_at_exact_partial gives every result for every position."
  },
  {
   "property": "C10",
   "status": "partial",
   "theorems": [
    "C10_try_write_single_partial",
    "C10_try_write_success_partial",
    "C10_try_write_at_single_partial",
    "C10_try_write_many_refuted",
    "C10_try_write_at_many_refuted",
    "C10_try_write_at_empty_refuted"
   ],
   "note": "Refuted for several values (partial write before the error) and for an empty range at the end; proved for one value, and success is equivalent to the throwing write for any number."
  },
  {
   "property": "C11",
   "status": "proved",
   "theorems": [
    "C11_try_write_writes_prefix",
    "C11_try_write_at_writes_prefix",
    "C11_try_write_at_past_end"
   ],
   "note": ""
  },
  {
   "property": "C12",
   "status": "partial",
   "theorems": [
    "C12_size_overflow_refuted",
    "C12_no_overflow_safe_partial",
    "C12_write_exact",
    "C12_write_at_exact",
    "C12_try_write_exact",
    "C12_try_write_many_exact",
    "C12_try_write_at_exact"
   ],
   "note": "Refuted: a range of 2^61 8-byte elements has byte_count 0. Proved safe when the exact total is below 2^64, and C12_write_exact, C12_write_at_exact, C12_try_write_many_exact and C12_try_write_at_exact say for every list of values and ranges which outcome occurs and what has been written, so the overruns are exactly the totals that wrap to something that fits."
  },
  {
   "property": "C13",
   "status": "proved",
   "theorems": [
    "C13_from_to_bytes",
    "C13_to_from_bytes"
   ],
   "note": ""
  },
  {
   "property": "C14",
   "status": "proved",
   "theorems": [
    "C14_range_roundtrip",
    "C14_range_reads_back"
   ],
   "note": ""
  },
  {
   "property": "C15",
   "status": "proved",
   "theorems": [
    "C15_read_view_in_bounds",
    "C15_construction"
   ],
   "note": ""
  },
  {
   "property": "C16",
   "status": "proved",
   "theorems": [
    "C16_view_read_is_read_at",
    "C16_view_read_range_is_read_range_at",
    "C16_view_read_endian_is_read_at",
    "C16_view_seek",
    "C16_throwing_call_leaves_view",
    "C16_reads_are_consecutive"
   ],
   "note": ""
  },
  {
   "property": "C17",
   "status": "partial",
   "theorems": [
    "C17_failed_try_read_consumes_refuted",
    "C17_failed_try_read_range_consumes_refuted",
    "C17_try_read_position_partial",
    "C17_try_read_range_position_partial"
   ],
   "note": "Refuted: a failed try_read moves the position. The exact position after every try_read / try_read_range is proved."
  },
  {
   "property": "C18",
   "status": "proved",
   "theorems": [
    "C18_append_log",
    "C18_one_write",
    "C18_position_in_bounds",
    "C18_construction"
   ],
   "note": ""
  },
  {
   "property": "C19",
   "status": "partial",
   "theorems": [
    "C19_failed_try_write_refuted",
    "C19_failed_try_write_single_partial",
    "C19_try_write_exact_partial"
   ],
   "note": "Refuted for several values. Proved for one value; exact effect proved for any number."
  },
  {
   "property": "C20",
   "status": "proved",
   "theorems": [
    "C20_write_then_read",
    "C20_write_exact",
    "C20_read_exact",
    "C20_try_read_exact",
    "C20_last_write_wins"
   ],
   "note": ""
  },
  {
   "property": "C21",
   "status": "partial",
   "theorems": [
    "C21_short_write_unnoticed_refuted",
    "C21_write_leaves_prefix_partial"
   ],
   "note": "Refuted: a write the OS cuts short is not noticed, the call returns normally. Proved: whatever the OS accepts is a prefix of the data, and other files are untouched."
  },
  {
   "property": "C22",
   "status": "partial",
   "theorems": [
    "C22_crash_atomic_refuted",
    "C22_crash_leaves_prefix_partial"
   ],
   "note": "Refuted: the file is truncated before writing, so a crash loses the old contents. Proved: at every crash point the file is old, or a prefix of the new data, and other files are untouched."
  },
  {
   "property": "C23",
   "status": "partial",
   "theorems": [
    "C23_source_overrun_refuted",
    "C23_wide_elements_refuted",
    "C23_no_overrun_partial",
    "C23_counted_write_partial",
    "C23_whole_range_partial"
   ],
   "note": "Refuted: count beyond the range reads past it, and ranges of wide elements write only size() bytes. Proved safe and exact when count is at most the byte length."
  },
  {
   "property": "C24",
   "status": "proved",
   "theorems": [
    "C24_stream_roundtrip",
    "C24_short_stream",
    "C24_enough_stream",
    "C24_failed_stream"
   ],
   "note": ""
  },
  {
   "property": "C25",
   "status": "proved",
   "theorems": [
    "C25_to_integer"
   ],
   "note": ""
  },
  {
   "property": "C26",
   "status": "partial",
   "theorems": [
    "C26_roundtrip_refuted",
    "C26_roundtrip_partial"
   ],
   "note": "Refuted by the language rules: every successful parse runs strlen past an unterminated 32-character array. Proved for every UUID, format and letter case under the assumption that a NUL follows the array in readable memory."
  },
  {
   "property": "C27",
   "status": "proved",
   "theorems": [
    "C27_text",
    "C27_injective"
   ],
   "note": ""
  },
  {
   "property": "C28",
   "status": "partial",
   "theorems": [
    "C28_parser_exact_partial",
    "C28_try_parser_partial",
    "C28_accepted_text_overreads_refuted",
    "C28_wide_characters_refuted",
    "C28_other_characters_partial"
   ],
   "note": "Proved exactly for every text, given a NUL behind the digit array: text isxdigit is defined for is accepted exactly if well formed; other text (wide characters above 255) is undefined if the delimiters are right and rejected otherwise. Refuted for accepted text in the standard's view, and for those wide characters."
  },
  {
   "property": "C29",
   "status": "partial",
   "theorems": [
    "C29_overflow_refuted",
    "C29_overread_refuted",
    "C29_exact_condition_partial",
    "C29_other_lengths_partial",
    "C29_other_characters_partial"
   ],
   "note": "Refuted twice: digit array overflow, and a read past the text. Proved: the exact set of dangerous inputs among all texts, and that all others are rejected or parsed."
  },
  {
   "property": "C30",
   "status": "partial",
   "theorems": [
    "C30_only_x_text_refuted",
    "C30_x_text_accepted_partial"
   ],
   "note": "Refuted: delimiters are not checked. Proved: well-formed X text is accepted with its value; C29_exact_condition_partial says what else is accepted."
  },
  {
   "property": "C31",
   "status": "proved",
   "theorems": [
    "C31_unknown_letter"
   ],
   "note": ""
  },
  {
   "property": "C32",
   "status": "proved",
   "theorems": [
    "C32_to_c_str"
   ],
   "note": ""
  },
  {
   "property": "C33",
   "status": "proved",
   "theorems": [
    "C33_field_text",
    "C33_fields_injective"
   ],
   "note": ""
  },
  {
   "property": "C34",
   "status": "partial",
   "theorems": [
    "C34_version_refuted",
    "C34_variant_partial",
    "C34_random_bits_partial"
   ],
   "note": "Refuted: the version nibble goes into byte 6, which is the second half of the third group. Proved: variant digit, where the 4 does appear, and that all other bits are the engine's."
  },
  {
   "property": "C35",
   "status": "proved",
   "theorems": [
    "C35_lexicographic",
    "C35_total_order",
    "C35_equal_hash"
   ],
   "note": ""
  },
  {
   "property": "C36",
   "status": "proved",
   "theorems": [
    "C36_roundtrip",
    "C36_text"
   ],
   "note": ""
  },
  {
   "property": "C37",
   "status": "partial",
   "theorems": [
    "C37_rejects_non_hex_refuted",
    "C37_even_length_partial",
    "C37_odd_length_partial"
   ],
   "note": "Refuted: the dynamic unhexlify accepts odd-length text and drops the last character. Proved exactly for even and odd lengths."
  },
  {
   "property": "C38",
   "status": "proved",
   "theorems": [
    "C38_unhexlify_n",
    "C38_try_unhexlify_n"
   ],
   "note": ""
  },
  {
   "property": "C39",
   "status": "proved",
   "theorems": [
    "C39_from_hex_chars",
    "C39_try_from_hex_chars",
    "C39_to_text_and_back"
   ],
   "note": ""
  },
  {
   "property": "C40",
   "status": "proved",
   "theorems": [
    "C40_join_after_split",
    "C40_split_after_join"
   ],
   "note": ""
  },
  {
   "property": "C41",
   "status": "proved",
   "theorems": [
    "C41_drop_empty"
   ],
   "note": ""
  },
  {
   "property": "C42",
   "status": "proved",
   "theorems": [
    "C42_split_total",
    "C42_views",
    "C42_pointers"
   ],
   "note": ""
  },
  {
   "property": "C43",
   "status": "partial",
   "theorems": [
    "C43_every_string_refuted",
    "C43_trim_partial",
    "C43_trim_defined_partial",
    "C43_pointers_partial"
   ],
   "note": "Refuted for signed char text with codes 128-254 (isspace on a negative value). Proved exactly otherwise, with the exact set of dangerous texts."
  },
  {
   "property": "C44",
   "status": "partial",
   "theorems": [
    "C44_strip_partial",
    "C44_strip_undefined_partial",
    "C44_strip_defined_partial",
    "C44_laws_partial",
    "C44_every_string_refuted"
   ],
   "note": "Same domain restriction as C43, proved to be exact; the full statement is proved for all text inside it, and the order of trims and idempotence for every text."
  },
  {
   "property": "C45",
   "status": "partial",
   "theorems": [
    "C45_join_partial",
    "C45_size_wraps_refuted",
    "C45_wrapped_size_partial"
   ],
   "note": "Proved whenever the exact size is below 2^64 (always true of strings that exist in memory together); for larger totals the size wraps and join writes out of bounds."
  },
  {
   "property": "C46",
   "status": "partial",
   "theorems": [
    "C46_concatenation_partial",
    "C46_pointer_precondition",
    "C46_shares_views",
    "C46_associative",
    "C46_default_refuted",
    "C46_default_anywhere_partial"
   ],
   "note": "Proved for every tree of + over C strings (texts, lengths, shared views, associativity). Refuted for default-constructed fragment strings: to_str appends a null C string."
  },
  {
   "property": "C47",
   "status": "partial",
   "theorems": [
    "C47_sane_is_without_gaps",
    "C47_reverse_empty_fragment_partial",
    "C47_inc_dec_any_partial",
    "C47_iteration_partial",
    "C47_inc_dec_partial",
    "C47_empty_fragment_refuted",
    "C47_every_empty_fragment_partial"
   ],
   "note": "Proved in all three builds when no fragment but the last is empty; proved to fail for every other fragment string, backwards even in debug builds without an assertion. ++ and -- as inverses are settled position by position for every fragment string."
  },
  {
   "property": "C48",
   "status": "partial",
   "theorems": [
    "C48_begin_plus_any_partial",
    "C48_positions_any_partial",
    "C48_begin_plus_partial",
    "C48_positions_partial",
    "C48_empty_fragment_refuted",
    "C48_past_the_end_partial"
   ],
   "note": "Proved when no fragment but the last is empty and the length is below 2^63; for every other fragment string begin()+i is proved to exist, to be usable exactly where no empty fragment starts, and to have the differences and order of the indices, while going back gives an equal iterator exactly where no empty fragment starts. begin()+n past the end is shown never to return in a release build."
  },
  {
   "property": "C49",
   "status": "partial",
   "theorems": [
    "C49_at_any_partial",
    "C49_front_any_partial",
    "C49_back_any_partial",
    "C49_at_throws",
    "C49_at_partial",
    "C49_subscript_partial",
    "C49_front_back_partial",
    "C49_empty_fragment_refuted"
   ],
   "note": "The out_of_range condition of at is proved for all fragment strings; the values are proved for all indices at which no empty fragment starts, and at the others the outcome in each build is proved (refuted)."
  },
  {
   "property": "C50",
   "status": "partial",
   "theorems": [
    "C50_compare_any_partial",
    "C50_trailing_empty_refuted",
    "C50_starts_any_partial",
    "C50_ends_any_partial",
    "C50_starts_ends_longer",
    "C50_starts_char_any_partial",
    "C50_ends_char_any_partial",
    "C50_compare_partial",
    "C50_compare_string_partial",
    "C50_string_order_refuted",
    "C50_empty_fragment_refuted",
    "C50_starts_ends_partial",
    "C50_starts_ends_empty_partial",
    "C50_starts_ends_refuted",
    "C50_starts_ends_char_partial",
    "C50_ends_char_refuted"
   ],
   "note": "Proved for the order of characters as values of the type and without empty fragments; refuted against std::string order for signed char, with empty fragments (C50_compare_any_partial gives the result for every pair of fragment strings, C50_trailing_empty_refuted an unequal result for equal texts), and for starts_with/ends_with on an empty string. starts_with and ends_with are settled for every pair of fragment strings: they fail exactly if the comparison gets to an empty fragment."
  },
  {
   "property": "C51",
   "status": "partial",
   "theorems": [
    "C51_find_string_any_partial",
    "C51_find_empty_partial",
    "C51_find_too_long",
    "C51_find_char_from_start_partial",
    "C51_find_char_refuted",
    "C51_find_char_partial",
    "C51_find_char_past_partial",
    "C51_find_string_partial",
    "C51_find_string_outside_partial",
    "C51_find_string_refuted"
   ],
   "note": "find(c) from 0 proved for all; find(c,pos) refuted (searches from the start of the fragment of pos), exact behaviour proved. find(s,pos) proved on its exact domain, undefined outside of it (find(\"\",length()), wrap). With empty fragments find(s,pos) is settled exactly by C51_find_string_any_partial."
  },
  {
   "property": "C52",
   "status": "partial",
   "theorems": [
    "C52_contains_string_any_partial",
    "C52_contains_string_trivial",
    "C52_contains_fragments_any_partial",
    "C52_contains_longer",
    "C52_contains_char",
    "C52_contains_string_partial",
    "C52_contains_string_refuted",
    "C52_contains_itself_refuted",
    "C52_contains_fragments_partial"
   ],
   "note": "contains(c) proved for all; contains(s) proved without empty fragments; contains(fragment_string) refuted (a string does not contain itself), exact behaviour proved. With empty fragments contains(s) and contains(fragment_string) are settled exactly by the _any_ theorems."
  },
  {
   "property": "C53",
   "status": "partial",
   "theorems": [
    "C53_substr_any_partial",
    "C53_copy_any_partial",
    "C53_substr_wraps_any_partial",
    "C53_copy_overrun_any_partial",
    "C53_throws",
    "C53_substr_partial",
    "C53_substr_refuted",
    "C53_substr_wraps_partial",
    "C53_copy_partial",
    "C53_copy_overrun_partial"
   ],
   "note": "Proved when pos+count does not wrap and no empty fragment is passed, and proved to fail otherwise (refuted for wrapping counts). copy overruns a short destination as std::string::copy does. Wrapping counts and short destinations are settled for every fragment string."
  },
  {
   "property": "C54",
   "status": "proved",
   "theorems": [
    "C54_bounded_list"
   ],
   "note": "For programs over any number of vectors. operator[] at or beyond size() is outside the statement, a throwing copy assignment is C78. A move from itself leaves every element as its own move assignment from itself leaves it, taken to be the moved-from value. There is no pop_back in the class."
  },
  {
   "property": "C55",
   "status": "partial",
   "theorems": [
    "C55_holds_size_refuted",
    "C55_sized_constructor_partial"
   ],
   "note": "Refuted: the sized constructor creates no element and ignores the capacity; its exact behaviour is proved for every size."
  },
  {
   "property": "C56",
   "status": "proved",
   "theorems": [
    "C56_destroyed_exactly_once",
    "C56_engaged_iff_alive",
    "C56_live_is_size",
    "C56_clear_keeps_elements_alive"
   ],
   "note": "Exactly-once destruction proved for all histories including throwing copies. Also shown: clear() destroys nothing until the vector is destroyed or the slot is reused."
  },
  {
   "property": "C57",
   "status": "proved",
   "theorems": [
    "C57_construction",
    "C57_size",
    "C57_at_first",
    "C57_at_throws",
    "C57_with_first",
    "C57_with_throws",
    "C57_inverse",
    "C57_write",
    "C57_write_throws"
   ],
   "note": ""
  },
  {
   "property": "C58",
   "status": "proved",
   "theorems": [
    "C58_insertion_ordered_map",
    "C58_distinct_ids",
    "C58_no_leak"
   ],
   "note": "Histories: all operations, all map/item allocation failures. Not covered: changing an id through emplace's reference (C59) and a vector allocation failing after the map's (C60), where it is refuted."
  },
  {
   "property": "C59",
   "status": "partial",
   "theorems": [
    "C59_assign_id_refuted",
    "C59_dangling_refuted",
    "C59_same_id_partial"
   ],
   "note": "Refuted by assigning a different id through the reference emplace returns; proved for histories whose assignments keep the id."
  },
  {
   "property": "C60",
   "status": "partial",
   "theorems": [
    "C60_several_items_refuted",
    "C60_prefix_inserted_partial",
    "C60_allocation_refuted",
    "C60_single_item_partial"
   ],
   "note": "Refuted for several items and for a failing vector allocation; proved: which prefix is inserted, and atomicity of single inserts otherwise."
  },
  {
   "property": "C61",
   "status": "partial",
   "theorems": [
    "C61_iteration",
    "C61_deref",
    "C61_relations",
    "C61_other_container",
    "C61_release_arithmetic",
    "C61_debug_steps",
    "C61_debug_jumps_partial",
    "C61_end_by_arithmetic_refuted",
    "C61_end_never_reached_partial",
    "C61_index_partial",
    "C61_negative_index_refuted",
    "C61_deref_end_refuted"
   ],
   "note": "Proved for release builds, ++/--, comparison and iteration. Refuted in debug builds for reaching end() by arithmetic and for negative indices; exact behaviour proved."
  },
  {
   "property": "C62",
   "status": "partial",
   "theorems": [
    "C62_contents_partial",
    "C62_one_size",
    "C62_order_refuted",
    "C62_succeeds",
    "C62_failures"
   ],
   "note": "Proved for at most one size argument and any number of reserves; refuted for two size arguments (the last one decides the size but the first decides the values). C62_succeeds and C62_failures say exactly when it throws."
  },
  {
   "property": "C63",
   "status": "partial",
   "theorems": [
    "C63_value_or_error_partial",
    "C63_all_programs_partial",
    "C63_valueless_refuted"
   ],
   "note": "Proved for every history if element moves are noexcept; refuted otherwise: a throwing copy assignment makes the variant valueless, is_error() is true and error() terminates."
  },
  {
   "property": "C64",
   "status": "proved",
   "theorems": [
    "C64_left_identity",
    "C64_right_identity",
    "C64_associativity",
    "C64_errors_propagate",
    "C64_values_propagate",
    "C64_or_else_left_identity",
    "C64_or_else_right_identity",
    "C64_valueless",
    "C64_or_else_associativity",
    "C64_transform",
    "C64_transform_error",
    "C64_functor_identity",
    "C64_functor_composition",
    "C64_error_functor_identity",
    "C64_error_functor_composition"
   ],
   "note": "All laws, with functions that may throw and have side effects. The or_else right identity needs a result that is not valueless. C64_valueless says what the combinators do with one that is."
  },
  {
   "property": "C65",
   "status": "partial",
   "theorems": [
    "C65_try_finally_partial",
    "C65_history_partial",
    "C65_during_unwinding_refuted"
   ],
   "note": "Proved equal to try/finally semantics for all nestings, except scope_success/scope_fail inside functions that may run during unwinding, where it is refuted (the guards test uncaught_exceptions() against 0). At-most-once, release and scope_exit completeness are proved for all of them."
  },
  {
   "property": "C66",
   "status": "partial",
   "theorems": [
    "C66_assignment_refuted",
    "C66_without_assignment_partial",
    "C66_runs_bounded_partial",
    "C66_runs_created_partial",
    "C66_one_run_per_guard_partial"
   ],
   "note": "Refuted: WITE_MOVABLE_ONLY defaults the assignments. Proved for programs without assignment between guards. For all programs: never more functions run than guards were created, only functions of created guards run, and with scope_exit guards that are not released as many as guards."
  },
  {
   "property": "C67",
   "status": "partial",
   "theorems": [
    "C67_release",
    "C67_debug_partial",
    "C67_debug_steps",
    "C67_most_negative_refuted",
    "C67_most_negative_partial",
    "C67_add_sub"
   ],
   "note": "Proved for release builds and for every offset but INT64_MIN in debug builds, where evaluating the assertion is undefined even if the result fits."
  },
  {
   "property": "C68",
   "status": "proved",
   "theorems": [
    "C68_integers_ordered",
    "C68_floats_ordered",
    "C68_membership",
    "C68_exactly_one"
   ],
   "note": "For every total order; instances for the integer types and for binary floating point without NaN (see C81 for NaN)."
  },
  {
   "property": "C69",
   "status": "partial",
   "theorems": [
    "C69_members_partial",
    "C69_closed_partial",
    "C69_open_refuted",
    "C69_laws",
    "C69_laws_exact"
   ],
   "note": "Members of the overlap are exact for all boundary kinds, and nullopt implies no common value. The converse is proved for closed ranges and refuted for open ones: (0,1) and (1,2) overlap in (1,1). Laws hold for all kinds."
  },
  {
   "property": "C70",
   "status": "partial",
   "theorems": [
    "C70_closed_partial",
    "C70_integers_partial",
    "C70_any_ends_partial",
    "C70_open_refuted"
   ],
   "note": "Proved for closed ranges. Refuted for open ones: clamp returns an end, which is not contained. C70_any_ends_partial gives the result for every kind of ends."
  },
  {
   "property": "C71",
   "status": "partial",
   "theorems": [
    "C71_fits_partial",
    "C71_unsigned_partial",
    "C71_too_wide",
    "C71_overflow_refuted"
   ],
   "note": "Proved whenever max - min is a value of the type (always for unsigned types). Refuted otherwise: signed overflow for int and wider, wrap-around for narrower types. C71_too_wide gives the exact wrapped size for the narrower types."
  },
  {
   "property": "C72",
   "status": "proved",
   "theorems": [
    "C72_min_max",
    "C72_any_order",
    "C72_any_order_exact",
    "C72_envelope",
    "C72_envelope_range",
    "C72_envelope_ranges"
   ],
   "note": "An empty collection given to envelope is undefined behaviour."
  },
  {
   "property": "C73",
   "status": "partial",
   "theorems": [
    "C73_integers",
    "C73_next_float",
    "C73_prev_float_partial",
    "C73_prev_float_wrong_way",
    "C73_prev_float_refuted"
   ],
   "note": "next_value and integers proved. prev_value is the predecessor exactly above the smallest positive normal number; for all others it moves up, because it steps toward numeric_limits::min()."
  },
  {
   "property": "C74",
   "status": "partial",
   "theorems": [
    "C74_exact_arithmetic",
    "C74_integers_partial",
    "C74_wide_refuted",
    "C74_any_width_partial",
    "C74_fraction_partial",
    "C74_fraction_any_width_partial",
    "C74_round_trip_refuted",
    "C74_double_monotone_partial",
    "C74_double_at_0_partial",
    "C74_double_exact_width_partial",
    "C74_double_fraction_partial",
    "C74_members_int_partial",
    "C74_members_double_partial",
    "C74_double_refuted"
   ],
   "note": "Laws in exact arithmetic proved. Machine arithmetic: integers proved for widths that fit the type and 2^53; refuted beyond, where C74_any_width_partial gives the exact outcome (undefined, up to 1024 beyond the end, or wrapped past it: interpolate(1.0, 2^63, 2^64 - 1) is 0) and C74_fraction_any_width_partial the exact fraction. Doubles: monotone and exact at 0; end point, containment, finiteness and inverse refuted. Doubles: inside and exact at both ends when max - min is exact; fraction is 0 at min, 1 at max, in [0, 1] and monotone when max - min is finite."
  },
  {
   "property": "C75",
   "status": "partial",
   "theorems": [
    "C75_exact_values_partial",
    "C75_set",
    "C75_history",
    "C75_named",
    "C75_no_values_partial",
    "C75_other_values",
    "C75_wrong_count_refuted"
   ],
   "note": "Exactly D values, reads and assignments proved. Refuted for other counts: more than D values write out of bounds, after fewer the rest is indeterminate (the README shows such a case)."
  },
  {
   "property": "C76",
   "status": "proved",
   "theorems": [
    "C76_point_text",
    "C76_point_injective",
    "C76_range_text",
    "C76_range_injective",
    "C76_printable"
   ],
   "note": "Any dimension count below 2^32 (the loop index is an unsigned int). Element printing is a parameter; integers and bytes are shown to meet its hypotheses."
  },
  {
   "property": "C77",
   "status": "partial",
   "theorems": [
    "C77_plain_partial",
    "C77_width_refuted",
    "C77_width_partial"
   ],
   "note": "Proved for field width 0; refuted for other widths, exact output proved."
  },
  {
   "property": "C78",
   "status": "partial",
   "theorems": [
    "C78_strong_guarantee_partial",
    "C78_copy_assignment_partial",
    "C78_copy_assignment_refuted"
   ],
   "note": "Proved for every operation except copy assignment. There, a throw while copying an element below the source's size() leaves a mixture of both contents, all existing (C78_copy_assignment_partial); a throw while copying a left-over element beyond it is the refutation."
  },
  {
   "property": "C79",
   "status": "partial",
   "theorems": [
    "C79_set_min_int_partial",
    "C79_set_max_int_partial",
    "C79_set_min_float_partial",
    "C79_set_max_float_partial",
    "C79_set_min_extreme_partial",
    "C79_set_max_extreme_partial",
    "C79_set_min_largest_partial",
    "C79_set_max_wrong_way_partial",
    "C79_refuted"
   ],
   "note": "Integers: proved except where the neighbour of the new end does not exist. Every floating-point format: proved except the largest value as open minimum and an open maximum at or below the smallest normal number. The exceptions are refuted, and what happens there is given exactly."
  },
  {
   "property": "C80",
   "status": "partial",
   "theorems": [
    "C80_clamp_partial",
    "C80_clamp_any_partial",
    "C80_open_refuted",
    "C80_default_int_partial",
    "C80_default_float",
    "C80_default_float_refuted"
   ],
   "note": "Closed bounds and integer defaults proved. Refuted for open bounds and for floating-point default bounds, which start at the smallest positive normal number. C80_clamp_any_partial gives the result for every kind of bounds."
  },
  {
   "property": "C81",
   "status": "partial",
   "theorems": [
    "C81_nan_refuted",
    "C81_other_values_partial"
   ],
   "note": "Refuted for NaN: every range contains it. Exact for all other values."
  },
  {
   "property": "C82",
   "status": "partial",
   "theorems": [
    "C82_mid_inside_partial",
    "C82_mid_overflow_partial",
    "C82_overflow_refuted"
   ],
   "note": "Proved when max - min does not overflow; otherwise the middle is minus infinity (C82_mid_overflow_partial), as for [-max, max]."
  },
  {
   "property": "C83",
   "status": "proved",
   "theorems": [
    "C83_comparison",
    "C83_order"
   ],
   "note": "Points of equal dimension with every coordinate initialised."
  },
  {
   "property": "C84",
   "status": "proved",
   "theorems": [
    "C84_index",
    "C84_index_injective",
    "C84_uuid",
    "C84_uuid_injective",
    "C84_id"
   ],
   "note": "Index: unless padded with digits as fill character. Padding is the default (right) adjustment."
  },
  {
   "property": "C85",
   "status": "proved",
   "theorems": [
    "C85_shared_safe",
    "C85_unchecked_seek",
    "C85_readers_do_not_interfere",
    "C85_queue",
    "C85_fifo"
   ],
   "note": "Queue: the writer uses write and write_with_endian, the reader read, read_range and read_with_endianness; reader never ahead of the writer (a hypothesis on every prefix of the history). Buffers under 2^63 bytes."
  },
  {
   "property": "C86",
   "status": "proved",
   "theorems": [
    "C86_fields_in_any_order",
    "C86_update",
    "C86_disjoint_read"
   ],
   "note": "Throwing write_at; buffers under 2^64 bytes."
  },
  {
   "property": "C87",
   "status": "partial",
   "theorems": [
    "C87_handle_closed_refuted",
    "C87_exhaustion_refuted",
    "C87_handles_exact_partial",
    "C87_closed_partial",
    "C87_only_read_partial",
    "C87_healthy_read",
    "C87_healthy_try_read",
    "C87_healthy_write",
    "C87_files",
    "C87_write_opens"
   ],
   "note": "Refuted: read(path) leaks the FILE when allocating the result throws (memory, or ftell reporting a huge size); enough of these and no file can be opened. Partial: exact number of leaked handles; all other calls close."
  },
  {
   "property": "C88",
   "status": "partial",
   "theorems": [
    "C88_short_read_refuted",
    "C88_wide_elements_refuted",
    "C88_read_delivers_partial",
    "C88_try_read_delivers_partial",
    "C88_read_exact_partial",
    "C88_try_read_exact_partial"
   ],
   "note": "Refuted: a short fread is not noticed (zeros or old contents returned as data); a vector of wide elements reads size() bytes and reports size() elements. Partial: exact contents delivered; correct for byte ranges when fread delivers everything."
  },
  {
   "property": "C89",
   "status": "proved",
   "theorems": [
    "C89_stream_is_buffer",
    "C89_stream_reads_like_buffer"
   ],
   "note": "Native (unencoded) values, the only ones streams accept."
  },
  {
   "property": "C90",
   "status": "proved",
   "theorems": [
    "C90_portable",
    "C90_save_load",
    "C90_save_load_same_machine",
    "C90_native_differs"
   ],
   "note": "Plain-old-data counts as portable as opaque bytes. File functions as in C20: nothing fails."
  },
  {
   "property": "C91",
   "status": "partial",
   "theorems": [
    "C91_convert_partial",
    "C91_canonical_partial",
    "C91_canonical_X_partial",
    "C91_convert_X_partial",
    "C91_canonical_X_refuted",
    "C91_case_insensitive_partial"
   ],
   "note": "Given a NUL behind the parser's array, as in C28: case independence is proved for every format, and conversion for every format (for X, the digits outside \"0x\"). Refuted: in format X other delimiters are accepted, so the same text need not come back; it does for well formed text and for N, D, B, P."
  },
  {
   "property": "C92",
   "status": "partial",
   "theorems": [
    "C92_text_order_refuted",
    "C92_exact_order_partial",
    "C92_same_fields_partial"
   ],
   "note": "Refuted: the first three fields are compared lowest byte first, so the order of texts can be the reverse. Partial: exact order of texts; equal first three fields order alike."
  },
  {
   "property": "C93",
   "status": "proved",
   "theorems": [
    "C93_moves_refine",
    "C93_move_transfers",
    "C93_move_to_itself",
    "C93_moved_from_usable_refuted"
   ],
   "note": "For programs of any length over any number of collections, under the conditions of C58. What a move leaves in the source's map and vector, and what a self-move leaves, are oracles; the refuted theorem is the last clause about the source: with some libraries that the standard allows, reading a moved-from collection before clear() is undefined."
  },
  {
   "property": "C94",
   "status": "partial",
   "theorems": [
    "C94_interpolate_partial",
    "C94_monotone_partial",
    "C94_range_partial",
    "C94_fraction_partial",
    "C94_fraction_empty",
    "C94_endpoint_refuted",
    "C94_mid_partial",
    "C94_mid_overflow_partial",
    "C94_mid_refuted"
   ],
   "note": "Proved where max - min is a finite float: interpolate is defined on [0, 1], gives min at 0, is monotone; inside the range and max at 1 if max - min is exact; fraction and mid as stated. Refuted otherwise: interpolate(1, a, b) can exceed b or be infinite, mid() of [-max, max] is minus infinity."
  },
  {
   "property": "C95",
   "status": "proved",
   "theorems": [
    "C95_any_text",
    "C95_too_short",
    "C95_agrees"
   ],
   "note": "Proved for every text and N; the C++ loop counter is a 32-bit unsigned, so N below 2^32."
  },
  {
   "property": "C96",
   "status": "proved",
   "theorems": [
    "C96_hexlify_concat",
    "C96_unhexlify_concat",
    "C96_case",
    "C96_normal_form",
    "C96_order"
   ],
   "note": "Proved for every byte sequence and text."
  },
  {
   "property": "C97",
   "status": "partial",
   "theorems": [
    "C97_equal_partial",
    "C97_equivalence_partial",
    "C97_nan_refuted",
    "C97_same_members",
    "C97_closed_extensional_partial",
    "C97_extensional_refuted",
    "C97_empty_half_open_partial",
    "C97_empty_open_partial",
    "C97_empty_closed_partial",
    "C97_empty_refuted",
    "C97_empty_size",
    "C97_empty_size_double"
   ],
   "note": "Refuted: the closed range [3, 3] is empty() though it contains 3, the open integer range (1, 2) has no member though it is not empty(), two such open ranges differ without differing in members, and a range with a NaN is not equal to itself. Partial: exact meaning for half-open, closed and open ranges; empty() is size() == 0 for integers and finite doubles."
  },
  {
   "property": "C98",
   "status": "partial",
   "theorems": [
    "C98_pointer_partial",
    "C98_iteration_partial",
    "C98_pointer_precondition",
    "C98_pointer_refuted",
    "C98_parts_partial",
    "C98_parts_precondition",
    "C98_parts_is_plus",
    "C98_literal_partial",
    "C98_literal_refuted",
    "C98_sizes"
   ],
   "note": "Refuted: with a fragment count above what the arguments need, length() is right but to_str() appends a null C string, which is undefined; with a count below, the copy runs past the array; a literal stops at its first NUL, since the length the compiler passes is ignored. Partial: exact behaviour for every count and literal."
  },
  {
   "property": "C99",
   "status": "proved",
   "theorems": [
    "C99_write",
    "C99_write_with_endian",
    "C99_try_write",
    "C99_unchecked_write",
    "C99_unchecked_read"
   ],
   "note": ""
  },
  {
   "property": "C100",
   "status": "proved",
   "theorems": [
    "C100_references_stay",
    "C100_same_object",
    "C100_emplace",
    "C100_excise"
   ],
   "note": "Under the conditions of C58 (vector allocation succeeds, assignments keep ids). The model never reuses an address; reading a reference to a destroyed item is undefined in C++ whether or not the address is reused."
  },
  {
   "property": "C101",
   "status": "proved",
   "theorems": [
    "C101_prefix_survives",
    "C101_cut_anywhere",
    "C101_fit_exists"
   ],
   "note": "Native values, default exceptions() mask. A program that does not check the stream takes values that were never written (see C101_nonvacuous)."
  },
  {
   "property": "C102",
   "status": "partial",
   "theorems": [
    "C102_interpolate_partial",
    "C102_monotone_partial",
    "C102_range",
    "C102_fraction_partial",
    "C102_fraction_monotone_partial",
    "C102_fraction_unit_partial",
    "C102_fraction_undefined",
    "C102_fraction_empty",
    "C102_fraction_refuted",
    "C102_interpolate_refuted",
    "C102_mid_partial",
    "C102_mid_overflow_partial",
    "C102_mid_refuted"
   ],
   "note": "Proved where max - min is finite: interpolate is min at 0 and monotone, and inside the range and max at 1 if max - min is exact; fraction is 0 at min, monotone, at most 1 if the width is between the smallest normal and the largest double, and undefined if the distance exceeds the largest double; mid() is inside. Refuted otherwise, with x87's format: interpolate(1, a, b) can exceed b, fraction(max) can be 1 - 2^-53 or 4/3, mid() of [-max, max] is minus infinity, and value_range::interpolate drops bits of its fraction."
  },
  {
   "property": "C103",
   "status": "partial",
   "theorems": [
    "C103_release_partial",
    "C103_builds_partial",
    "C103_debug_refuted"
   ],
   "note": "Proved for release builds in full, and for debug builds with exactly the operations whose assertions fail. Refuted in debug builds: an iterator remembers the size from when it was made, so ++ past the old end, a jump to an element pushed since, or any jump onto the end fails an assertion although it is valid."
  },
  {
   "property": "C104",
   "status": "partial",
   "theorems": [
    "C104_fragments_partial",
    "C104_vectors_partial",
    "C104_collections_partial",
    "C104_moves_partial",
    "C104_iterators_partial",
    "C104_index_partial",
    "C104_ranges_partial",
    "C104_numbers_partial",
    "C104_floats_partial",
    "C104_index_refuted",
    "C104_setter_refuted",
    "C104_iterators_refuted"
   ],
   "note": "Proved for everything listed except three cases, each refuted and excluded exactly: index += and -= PTRDIFF_MIN (wraps in release, undefined in debug because the assertion negates the offset), an open end of a signed range of at least 32 bits moved to the extreme value (the assertion overflows), and it[n] on an element that is gone (std::terminate in release, std::bad_optional_access with throwing assertions)."
  },
  {
   "property": "C105",
   "status": "partial",
   "theorems": [
    "C105_builds_partial",
    "C105_same_item_partial",
    "C105_refuted",
    "C105_debug_refuted"
   ],
   "note": "True exactly while the rules of std::vector allow it: after an insertion that does not move the vector (except end()), after removals of later items only, and after any other call. Proved for all such programs. Refuted otherwise: an insertion may move the vector, erasing an item invalidates iterators to it, to every later item and end(); and, in debug builds, an iterator made before an insertion cannot be moved past the old end. Calls as in C58."
  },
  {
   "property": "C106",
   "status": "partial",
   "theorems": [
    "C106_objects_partial",
    "C106_x_partial",
    "C106_x_rejects_partial",
    "C106_x_refuted",
    "C106_roundtrip_partial"
   ],
   "note": "Proved for nine of the ten objects and, for uuid_format::x, for every text in braces or of a length other than 68; refuted otherwise: uuid_format::x requires the braces, uuid_format::X (used for both letters) does not, so the object rejects texts that the letter accepts. The round trip needs the NUL of C26."
  },
  {
   "property": "C107",
   "status": "proved",
   "theorems": [
    "C107_kept_iterators",
    "C107_read_after_assignment",
    "C107_begin_after_assignment"
   ],
   "note": "Programs over numbered strings and iterators, simulated by positions. An iterator of a destroyed string or of one that shows other texts now is covered for reading in release builds and for == with a new begin() only; otherwise, and for the order and the distance of iterators of two strings in release builds, C++ leaves the result open. Offsets fit ptrdiff_t and are not its least value."
  },
  {
   "property": "C108",
   "status": "proved",
   "theorems": [
    "C108_half_differs",
    "C108_halves_collide"
   ],
   "note": "std::hash<uint64_t> is a function given by the caller of the model; its injectivity is a hypothesis of the first theorem only."
  },
  {
   "property": "C109",
   "status": "proved",
   "theorems": [
    "C109_engines",
    "C109_any_schedule",
    "C109_no_entropy",
    "C109_other_threads",
    "C109_twister"
   ],
   "note": "The engine is modelled from the C++ standard (its 10000th word agrees); std::uniform_int_distribution over all of uint64_t is taken to be one call of a 64-bit engine."
  },
  {
   "property": "C110",
   "status": "partial",
   "theorems": [
    "C110_unique_refuted",
    "C110_same_value_partial",
    "C110_equal_bits_partial",
    "C110_different_seeds_partial",
    "C110_different_values_partial"
   ],
   "note": "Refuted: the engine is seeded with one 32-bit value, so among more than 2^32 threads two make the same UUIDs in every schedule. Proved: threads given the same value make the same UUIDs, threads given different values differ within their first 312 UUIDs (so there are exactly 2^32 sequences); two UUIDs are equal exactly when the words agree on 122 bits."
  },
  {
   "property": "C111",
   "status": "proved",
   "theorems": [
    "C111_write_at_own_bytes",
    "C111_write_own_bytes",
    "C111_read_range_at_own_bytes",
    "C111_own_bytes_too_long",
    "C111_own_bytes_moved_refuted",
    "C111_moved_unique"
   ],
   "note": "The elements are bytes. The whole range is inside the buffer. C111_own_bytes_moved_refuted shows that the call need not move the bytes as they were."
  },
  {
   "property": "C112",
   "status": "proved",
   "theorems": [
    "C112_read_at_defined",
    "C112_read_defined",
    "C112_written_values_read_back",
    "C112_try_read_agrees",
    "C112_try_read_at_agrees",
    "C112_read_bool",
    "C112_reading_is_defined_refuted"
   ],
   "note": "bool_type is the instance for bool; the set of valid representations is arbitrary otherwise. C112_reading_is_defined_refuted shows that C05 does not extend to bool. Range reads and views of such types are not covered."
  },
  {
   "property": "C113",
   "status": "proved",
   "theorems": [
    "C113_reads_after_changes",
    "C113_writes_after_changes",
    "C113_unusable_after_changes",
    "C113_seek_restores",
    "C113_seek_restores_writer",
    "C113_appended_bytes_are_read",
    "C113_usable_after_append_refuted",
    "C113_reader_at_the_end_refuted"
   ],
   "note": "Iterator invalidation as in the C++ standard ([vector.capacity], [vector.modifiers]); the growth policy is a parameter. The two refuted theorems show that appending can make a view unusable. swap and moves of the vector are not covered."
  },
  {
   "property": "C114",
   "status": "proved",
   "theorems": [
    "C114_as_alone",
    "C114_nothing_else_changes",
    "C114_finishes",
    "C114_same_for_every_schedule",
    "C114_race_free_iff",
    "C114_shared_value_refuted"
   ],
   "note": "A call is the sequence of its accesses to single bytes; a data race is two accesses of different threads to one byte, one of them a store, since the threads do not synchronise. The buffer's size and the arguments are not shared state that changes. The refuted theorem shows the last sentence. try_write_at and try_read_at are covered for one value or range."
  },
  {
   "property": "C115",
   "status": "proved",
   "theorems": [
    "C115_tokens_or_terminate",
    "C115_fits_keeping_empty",
    "C115_fits_dropping_empty",
    "C115_join_back",
    "C115_pointers"
   ],
   "note": "The result is returned in place (copy elision) or moved element by element, which keeps the elements."
  },
  {
   "property": "C116",
   "status": "proved",
   "theorems": [
    "C116_own_files",
    "C116_as_alone",
    "C116_untouched",
    "C116_where_bytes_come_from",
    "C116_one_writer",
    "C116_open_fails",
    "C116_read_old_or_new_refuted",
    "C116_one_write_wins_refuted"
   ],
   "note": "One operation of the system at a time; ranges of bytes; files are not removed or renamed meanwhile; allocation succeeds. The refuted theorems are the last sentence: read measures the file, then fills a zeroed vector of that size and ignores how much was read, so a truncation in between gives zeros."
  },
  {
   "property": "C117",
   "status": "proved",
   "theorems": [
    "C117_follows_the_text",
    "C117_usable",
    "C117_same_length",
    "C117_copies_stay",
    "C117_unchanged",
    "C117_to_str_agrees",
    "C117_moved_nul_refuted"
   ],
   "note": "Texts are arrays of characters; a string that gets a new buffer ends one array and starts another. Memory for vectors is always there. The refuted theorem shows the last part of the last sentence: to_str appends the C string at data() and ignores the view's length."
  },
  {
   "property": "C118",
   "status": "proved",
   "theorems": [
    "C118_crash",
    "C118_short_write",
    "C118_read_on_refuted"
   ],
   "note": "Buffers and records below 2^63 bytes; records fit in the buffer; the file is read without failure. The refuted theorem shows the last sentence."
  },
  {
   "property": "C119",
   "status": "proved",
   "theorems": [
    "C119_as_alone",
    "C119_safe",
    "C119_progress",
    "C119_same_for_every_schedule",
    "C119_parallel_fill"
   ],
   "note": "Calls as sequences of accesses to single bytes, as in C114. Buffers and calls below 2^63 bytes. What is asked of the programs is about each thread's run by itself."
  },
  {
   "property": "C120",
   "status": "partial",
   "theorems": [
    "C120_any_place_refuted",
    "C120_make_partial",
    "C120_hash_partial",
    "C120_misplaced",
    "C120_arrays"
   ],
   "note": "Refuted: the code uses the bytes through uint64_t pointers, which is undefined where the address is not a multiple of alignof(uint64_t), e.g. for a uuid after a bool in a struct. Proved: at multiples of it the statement holds; everywhere else both are undefined; elements of an array are all as well placed as the array. Aliasing is taken to be allowed."
  },
  {
   "property": "C121",
   "status": "proved",
   "theorems": [
    "C121_text",
    "C121_value",
    "C121_from_hex_chars",
    "C121_order"
   ],
   "note": "On machines whose byte order wite was configured with."
  },
  {
   "property": "C122",
   "status": "proved",
   "theorems": [
    "C122_any_input",
    "C122_sent",
    "C122_other_machine"
   ],
   "note": "Buffers below 2^63 bytes; every length the prefix can hold is a size below 2^63 bytes. Allocating the vector for a length that was read is the caller's and taken to succeed."
  },
  {
   "property": "C123",
   "status": "proved",
   "theorems": [
    "C123_fields",
    "C123_any_text",
    "C123_hex",
    "C123_uuids"
   ],
   "note": "The joined text must fit the string type. The theorem about UUIDs assumes, as C26_roundtrip_partial does, that a NUL follows the parser's array."
  },
  {
   "property": "C124",
   "status": "proved",
   "theorems": [
    "C124_try_read",
    "C124_read",
    "C124_read_range",
    "C124_write",
    "C124_try_write",
    "C124_write_at",
    "C124_read_at"
   ],
   "note": "Groups of at least one value, buffers below 2^63 bytes for writing."
  },
  {
   "property": "C125",
   "status": "proved",
   "theorems": [
    "C125_load_any",
    "C125_save_load",
    "C125_crash"
   ],
   "note": "Ids and data are modelled as unsigned integers; data types that are not numbers are outside."
  },
  {
   "property": "C126",
   "status": "partial",
   "theorems": [
    "C126_find_all_string_partial",
    "C126_find_all_char_partial",
    "C126_find_all_char_never_ends_partial",
    "C126_find_all_char_refuted",
    "C126_split_partial",
    "C126_split_guarded_partial",
    "C126_split_refuted"
   ],
   "note": "Strings: proved (step 1 up to the length of the string; no empty fragment before the last). Characters: refuted, the loop never ends if some occurrence is not the last character of its fragment, and proved to be right exactly otherwise. Splitting: refuted, substr(length()) throws where std::string gives an empty string, so text that is empty or ends with the character fails; proved for all other text, and for all text if that call is guarded."
  },
  {
   "property": "C127",
   "status": "partial",
   "theorems": [
    "C127_scope_fail_partial",
    "C127_scope_fail_unwinding_partial",
    "C127_scope_fail_refuted",
    "C127_released",
    "C127_released_unwinding"
   ],
   "note": "scope_exit with release: proved, while an exception passes too. scope_fail: proved for transactions that run while no exception is in flight; refuted for one in a destructor while an exception passes, since the guard asks whether any exception is in flight rather than whether there is one more than when it was made: a transaction that succeeds there is undone, and C127_scope_fail_unwinding_partial says exactly what happens."
  },
  {
   "property": "C128",
   "status": "proved",
   "theorems": [
    "C128_cut_off",
    "C128_more_follows",
    "C128_try",
    "C128_always",
    "C128_delivered",
    "C128_any_pieces",
    "C128_try_receiver"
   ],
   "note": "Proved for total lengths below 2^64, for readers whose every message takes at least one byte (it begins with a read call) and whose calls are such as C++ allows."
  },
  {
   "property": "C129",
   "status": "partial",
   "theorems": [
    "C129_common",
    "C129_pairs",
    "C129_any_order",
    "C129_merge_partial",
    "C129_merge_any_partial",
    "C129_merge_refuted"
   ],
   "note": "Common part: proved for all kinds of ends. Merging: proved if at least one kind of end is closed; with both open refuted, since (0, 2) and (2, 4) overlap in (2, 2) and are merged to (0, 4), which contains 2. C129_merge_any_partial says that nothing else is ever added, and nothing lost."
  },
  {
   "property": "C130",
   "status": "proved",
   "theorems": [
    "C130_fits_exactly",
    "C130_try_fits_exactly",
    "C130_try_same",
    "C130_same_bytes",
    "C130_grow",
    "C130_try_grow"
   ],
   "note": "Proved for buffers shorter than 2^63 bytes and calls such as C++ allows (at least one value, arguments of their types)."
  },
  {
   "property": "C131",
   "status": "proved",
   "theorems": [
    "C131_nearest",
    "C131_any_order",
    "C131_common",
    "C131_order_matters",
    "C131_one_range",
    "C131_twice",
    "C131_monotone",
    "C131_last"
   ],
   "note": "C131_order_matters shows that the order does matter if no value is in all of the ranges. Over orders in which distinct values may compare equal (such as -0.0 and 0.0) equality of results is up to that."
  },
  {
   "property": "C132",
   "status": "partial",
   "theorems": [
    "C132_integers_up",
    "C132_integers_down",
    "C132_floats_up",
    "C132_floats_down_partial",
    "C132_floats_down_never_ends",
    "C132_floats_down_refuted",
    "C132_floats_up_never_ends"
   ],
   "note": "Integers and ascending floating point in full. Descending floating point is refuted: prev_value goes towards numeric_limits::min(), the smallest positive normal number, so a loop down to any smaller value (0.0, negative numbers) never ends; proved exactly (C132_floats_down_never_ends) and for last values that are not below it (_partial)."
  },
  {
   "property": "C133",
   "status": "proved",
   "theorems": [
    "C133_convert",
    "C133_stops",
    "C133_and_back",
    "C133_in_place"
   ],
   "note": "Proved for buffers shorter than 2^63 bytes and fields of the sizes the types have."
  },
  {
   "property": "C134",
   "status": "partial",
   "theorems": [
    "C134_static_vector",
    "C134_fragment_string_partial",
    "C134_fragment_string_refuted"
   ],
   "note": "In full for static_vector. For fragment strings whose pieces, but for the last, are not empty, and of fewer than 2^63 characters (_partial); with an empty piece between others the search can read an iterator that cannot be read (_refuted), the defect C47 and C48 describe."
  },
  {
   "property": "C135",
   "status": "proved",
   "theorems": [
    "C135_written_and_read",
    "C135_every_text",
    "C135_unique",
    "C135_change_cell",
    "C135_appended",
    "C135_blank_lines"
   ],
   "note": "Proved for texts not longer than std::string allows (C45)."
  },
  {
   "property": "C136",
   "status": "partial",
   "theorems": [
    "C136_any_machine",
    "C136_same_machine",
    "C136_any_text_partial",
    "C136_odd_refuted",
    "C136_concatenation"
   ],
   "note": "Partial only because unhexlify ignores the last character of a text of odd length (C37): C136_odd_refuted. For texts of even length everything is proved."
  },
  {
   "property": "C137",
   "status": "proved",
   "theorems": [
    "C137_last_write",
    "C137_keys",
    "C137_other_keys",
    "C137_commute",
    "C137_with",
    "C137_there_and_back",
    "C137_translates"
   ],
   "note": "The equality of the keys (and for translating back of the values) is taken to be a true equality, as for C57."
  },
  {
   "property": "C138",
   "status": "partial",
   "theorems": [
    "C138_debug_partial",
    "C138_release",
    "C138_debug_agrees",
    "C138_ascending",
    "C138_descending_release",
    "C138_descending_debug",
    "C138_most_negative_refuted"
   ],
   "note": "Partial: in debug builds the offset -2^63 is left out, for which the operators are undefined although the exact value fits (C138_most_negative_refuted, see C67). The comparison of indices is that of their values."
  },
  {
   "property": "C139",
   "status": "proved",
   "theorems": [
    "C139_and_then",
    "C139_error_first",
    "C139_or_else",
    "C139_value_first",
    "C139_cut",
    "C139_transform"
   ],
   "note": "For or_else the functions are taken not to return a valueless result (one that lost its element to an exception, see C63): error() of it terminates."
  },
  {
   "property": "C140",
   "status": "partial",
   "theorems": [
    "C140_algorithms_partial",
    "C140_after_history_partial",
    "C140_leaving_is_reported",
    "C140_reverse",
    "C140_rotate",
    "C140_to_end_refuted"
   ],
   "note": "Partial: in debug builds += may not move to the end (C140_to_end_refuted, see C61): C140_leaving_is_reported says that this and leaving the range fail an assertion. Everything else is proved for every build."
  },
  {
   "property": "C141",
   "status": "partial",
   "theorems": [
    "C141_halving_partial",
    "C141_first_partial",
    "C141_mid_inside",
    "C141_usual_search_refuted",
    "C141_open_refuted"
   ],
   "note": "Partial: ranges wider than the largest value of their type (see C71_too_wide) and, in debug builds, ranges open at both ends (C141_open_refuted) are left out. The usual search is refuted (C141_usual_search_refuted)."
  },
  {
   "property": "C142",
   "status": "proved",
   "theorems": [
    "C142_sorts"
   ],
   "note": "The vectors are those C54 speaks of (see C140_after_history_partial)."
  }
 ]
}