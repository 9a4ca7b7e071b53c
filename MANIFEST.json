{
 "claims": [
  {
   "property": "C01",
   "status": "proved",
   "theorems": [
    "C01_from_argv",
    "C01_seq_refines_list",
    "C01_seq_precondition_violations_abort",
    "C01_append_self_diverges"
   ],
   "note": ""
  },
  {
   "property": "C02",
   "status": "proved",
   "theorems": [
    "C02_seq_destroys_exactly_once",
    "C02_seq_without_destructor_destroys_nothing"
   ],
   "note": ""
  },
  {
   "property": "C03",
   "status": "proved",
   "theorems": [
    "C03_sort_sorted_permutation",
    "C03_softsort_sorted_permutation",
    "C03_sort_inconsistent_comparator_refuted"
   ],
   "note": "C03_sort_inconsistent_comparator_refuted shows the comparator hypothesis is necessary."
  },
  {
   "property": "C04",
   "status": "proved",
   "theorems": [
    "C04_binary_search",
    "C04_linear_search"
   ],
   "note": ""
  },
  {
   "property": "C05",
   "status": "proved",
   "theorems": [
    "C05_shuffle_permutes",
    "C05_shuffle_reaches_every_permutation",
    "C05_reverse"
   ],
   "note": ""
  },
  {
   "property": "C06",
   "status": "proved",
   "theorems": [
    "C06_map_is_finite_map"
   ],
   "note": ""
  },
  {
   "property": "C07",
   "status": "proved",
   "theorems": [
    "C07_map_destroys_once",
    "C07_map_soft_destroy_keys_only"
   ],
   "note": ""
  },
  {
   "property": "C08",
   "status": "proved",
   "theorems": [
    "C08_set_history",
    "C08_size_iteration_same_keys",
    "C08_hash_table_shape",
    "C08_array_map_small",
    "C08_set_membership_equality_join"
   ],
   "note": ""
  },
  {
   "property": "C09",
   "status": "proved",
   "theorems": [
    "C09_split",
    "C09_every_string_splits",
    "C09_join_split_round_trip",
    "C09_empty_element_lost_refuted"
   ],
   "note": ""
  },
  {
   "property": "C10",
   "status": "proved",
   "theorems": [
    "C10_rbtree_is_ordered_map"
   ],
   "note": ""
  },
  {
   "property": "C11",
   "status": "proved",
   "theorems": [
    "C11_height_is_logarithmic",
    "C11_equal_black_counts",
    "C11_no_red_red",
    "C11_verify_tree_passes"
   ],
   "note": ""
  },
  {
   "property": "C12",
   "status": "partial",
   "theorems": [
    "C12_copy_partial",
    "C12_copy_odd_refuted",
    "C12_copy_empty_refuted"
   ],
   "note": "proved for an even number (or one) of accepted entries of a non-empty tree; for odd counts >= 3 the last entry is lost and an empty tree is undefined behaviour, see the _refuted theorems"
  },
  {
   "property": "C13",
   "status": "proved",
   "theorems": [
    "C13_ring_buffer_keeps_last",
    "C13_ring_buffer_destroys_once"
   ],
   "note": ""
  },
  {
   "property": "C14",
   "status": "proved",
   "theorems": [
    "C14_stack_is_lifo",
    "C14_stack_destroys_rest"
   ],
   "note": ""
  },
  {
   "property": "C15",
   "status": "proved",
   "theorems": [
    "C15_queue_is_fifo"
   ],
   "note": ""
  },
  {
   "property": "C16",
   "status": "proved",
   "theorems": [
    "C16_threaded_queue_is_fifo"
   ],
   "note": ""
  },
  {
   "property": "C17",
   "status": "proved",
   "theorems": [
    "C17_queue_linearizable",
    "C17_deque_linearizable",
    "C17_stack_linearizable",
    "C17_queue_exclusion_and_safety",
    "C17_deque_exclusion_and_safety",
    "C17_stack_exclusion_and_safety",
    "C17_queue_conserves_items",
    "C17_deque_conserves_items"
   ],
   "note": ""
  },
  {
   "property": "C18",
   "status": "partial",
   "theorems": [
    "C18_queue_wakeups_partial",
    "C18_deque_wakeups_partial",
    "C18_queue_wait_empty",
    "C18_deque_wait_empty",
    "C18_pushN_lost_wakeup_refuted"
   ],
   "note": "proved for all schedules of calls that add at most one item (Push, PushLeft/Right, ClearAndPush, PushN of <= 1) and take at least one; WaitEmpty is proved without restriction. PushN of two or more signals once only and a PopN(0) consumer swallows a wake-up: see the _refuted theorem and swallow_shape"
  },
  {
   "property": "C19",
   "status": "proved",
   "theorems": [
    "C19_threaded_deque_is_two_ended"
   ],
   "note": ""
  },
  {
   "property": "C20",
   "status": "partial",
   "theorems": [
    "C20_copies_are_independent_lists_partial",
    "C20_everything_is_released",
    "C20_iterator_append_reaches_the_copy_refuted",
    "C20_iterator_remove_frees_the_copy_refuted",
    "C20_detached_iterator_refuted",
    "C20_remove_by_address_refuted",
    "C20_null_payload_refuted",
    "C20_stale_iterator_refuted",
    "C20_invalid_iterator_refuted",
    "C20_iterators_notice_removals"
   ],
   "note": "Proved for every history in which a mutable iterator is taken on a list that shares nothing (all other operations unrestricted): same answers as independent lists, and nothing leaked. A mutable iterator on a list that shares nodes changes or frees the copy's nodes, see the C20_*_refuted theorems; also refuted: lists without compare function, NULL payloads, light iterators across a detach."
  },
  {
   "property": "C21",
   "status": "proved",
   "theorems": [
    "C21_history",
    "C21_BufferNew",
    "C21_terminated",
    "C21_BufferNewFrom",
    "C21_BufferCopy",
    "C21_copy_loses_bytes_refuted",
    "C21_zero_capacity_refuted",
    "C21_mode_switch_unterminated_refuted",
    "C21_append_nul_depends_on_room_refuted"
   ],
   "note": "Full for every legal history; the excluded calls are shown to break it (C21_zero_capacity_refuted, C21_mode_switch_unterminated_refuted, C21_append_nul_depends_on_room_refuted, C21_copy_loses_bytes_refuted). BufferSearchAndReplace (pcre) is not modelled."
  },
  {
   "property": "C22",
   "status": "partial",
   "theorems": [
    "C22_bytes",
    "C22_cstrings",
    "C22_total_orders",
    "C22_mixed_modes_refuted"
   ],
   "note": "Proved for two C strings (unsigned order) and for byte arrays and mixed pairs (signed order), each a total order; the full claim over a mix of modes is false of the code: C22_mixed_modes_refuted exhibits a cycle."
  },
  {
   "property": "C23",
   "status": "proved",
   "theorems": [
    "C23_StringWriter",
    "C23_FileWriter",
    "C23_wrong_type",
    "C23_long_string_refuted",
    "C23_nul_char_refuted"
   ],
   "note": "for single strings up to INT_MAX bytes and non-NUL characters; outside that C23_long_string_refuted and C23_nul_char_refuted show the deviation"
  },
  {
   "property": "C24",
   "status": "proved",
   "theorems": [
    "C24_round_trip",
    "C24_unterminated",
    "C24_unterminated_refuted"
   ],
   "note": "Any non-empty list of C strings survives CsvWriter + SeqParseCsvString (line shorter than the parser's buffer bound, predicate fits). Without line termination one shape is excluded and C24_unterminated_refuted shows why."
  },
  {
   "property": "C25",
   "status": "proved",
   "theorems": [
    "C25_records",
    "C25_last_record"
   ],
   "note": "Records written one after another are read back one by one by GetCsvLineNext and each parses to its fields."
  },
  {
   "property": "C26",
   "status": "partial",
   "theorems": [
    "C26_no_stale_read_partial",
    "C26_records_partial",
    "C26_empty_after_quoted_refuted",
    "C26_unclosed",
    "C26_malformed_partial",
    "C26_unambiguous",
    "C26_error_at_end_refuted",
    "C26_one_blank_refuted",
    "C26_one_blank_stale_refuted"
   ],
   "note": "No undefined behaviour, exact acceptance and rejection are proved for text without a single blank after closing quotes, without an empty field right after a quoted last one, and not going wrong only at the last character; the _refuted theorems show the code deviates on each of those."
  },
  {
   "property": "C27",
   "status": "partial",
   "theorems": [
    "C27_document",
    "C27_no_markup",
    "C27_reversible",
    "C27_attribute_refuted",
    "C27_comment_refuted"
   ],
   "note": "Content and comments are proved safe and reversible through an independent XML reader (C27_document); attribute values and two dashes in a comment are not escaped, shown by C27_attribute_refuted and C27_comment_refuted."
  },
  {
   "property": "C28",
   "status": "partial",
   "theorems": [
    "C28_deserialize",
    "C28_unambiguous",
    "C28_round_trip",
    "C28_file_round_trip",
    "C28_long_string_refuted",
    "C28_damaged_prefix_refuted",
    "C28_cut_file_refuted",
    "C28_bad_file_refuted"
   ],
   "note": "Round trips through memory and through files proved for all strings below 10^9 bytes; deserialization from memory proved safe and exact for the format the code accepts; damaged prefixes can be accepted and damaged files are undefined behaviour, see the _refuted theorems."
  },
  {
   "property": "C29",
   "status": "proved",
   "theorems": [
    "C29_StringSafeCompare",
    "C29_order_laws",
    "C29_before_is_strict_total_order",
    "C29_StringSafeCompareN",
    "C29_IgnoreCase",
    "C29_N_IgnoreCase",
    "C29_StringEqual"
   ],
   "note": ""
  },
  {
   "property": "C30",
   "status": "proved",
   "theorems": [
    "C30_SearchAndReplace",
    "C30_SearchAndReplace_nothing_to_find",
    "C30_StringReplace"
   ],
   "note": ""
  },
  {
   "property": "C31",
   "status": "partial",
   "theorems": [
    "C31_StringToLongUnsafe",
    "C31_reads_unique",
    "C31_StringToLong",
    "C31_StringToInt64",
    "C31_StringToUlong",
    "C31_StringFromLong",
    "C31_wrappers",
    "C31_StringDecimalToLong"
   ],
   "note": "proved for every text whose byte after the numeral is ASCII; for a byte 128..254 there isspace() gets a negative plain char, which C leaves undefined, see C31_high_byte_refuted"
  },
  {
   "property": "C32",
   "status": "partial",
   "theorems": [
    "C32_EscapeCharCopy_partial",
    "C32_EscapeCharCopy_fails"
   ],
   "note": "proved exactly for the strings with no backslash directly before the character to escape; C32_EscapeCharCopy_fails proves that all other strings overflow or come out unterminated"
  },
  {
   "property": "C33",
   "status": "partial",
   "theorems": [
    "C33_StringSubstring_partial",
    "C33_zero_length",
    "C33_StringSubstring_safe"
   ],
   "note": "exact slice for the documented argument combinations when it has at least two characters; single-character slices are NULL, and C33_refuted lists the other deviations (reach-back lengths, negative start with positive length, out-of-bounds reads)"
  },
  {
   "property": "C34",
   "status": "proved",
   "theorems": [
    "C34_StringAppend",
    "C34_strlcpy",
    "C34_strlcpy_size_0",
    "C34_strlcat",
    "C34_strlcat_full",
    "C34_StringCopy",
    "C34_PathAppend",
    "C34_StrCat",
    "C34_StrCat_history",
    "C34_StrCatDelim_history",
    "C34_StrCatDelim"
   ],
   "note": ""
  },
  {
   "property": "C35",
   "status": "proved",
   "theorems": [
    "C35_TrimWhitespace",
    "C35_StripTrailingNewline",
    "C35_Chop",
    "C35_stripped_right_unique",
    "C35_TrimCSVLineCRLF"
   ],
   "note": ""
  },
  {
   "property": "C36",
   "status": "proved",
   "theorems": [
    "C36_tokens_exist_uniquely",
    "C36_tokens",
    "C36_tokens_are_where_they_say",
    "C36_String2StringArray"
   ],
   "note": ""
  },
  {
   "property": "C37",
   "status": "proved",
   "theorems": [
    "C37_basename",
    "C37_join",
    "C37_basename_of_join",
    "C37_one_separator_refuted",
    "C37_quoted",
    "C37_quoted_idempotent",
    "C37_quote_refuted"
   ],
   "note": ""
  },
  {
   "property": "C38",
   "status": "partial",
   "theorems": [
    "C38_upper_power_of_two_partial",
    "C38_upper_power_of_two_above_2_32_refuted",
    "C38_upper_power_of_two_of_zero_refuted",
    "C38_ispow2"
   ],
   "note": "proved for every v in [1, 2^32], the range the library uses it on; above 2^32 (no 32-bit smear step) and at 0 the claim is false of the code, see the _refuted theorems"
  },
  {
   "property": "C39",
   "status": "partial",
   "theorems": [
    "C39_unsigned_modulus_partial",
    "C39_unsigned_modulus_small_divisor",
    "C39_unsigned_modulus_nonpositive_dividend",
    "C39_unsigned_modulus_overflow_refuted"
   ],
   "note": "proved exactly where the intermediate sum fits in long (all divisors up to 2^62, all non-positive dividends); outside that the code overflows, see the _refuted theorem"
  },
  {
   "property": "C40",
   "status": "proved",
   "theorems": [
    "C40_compare",
    "C40_antisymmetric",
    "C40_transitive",
    "C40_transitive_refuted"
   ],
   "note": ""
  },
  {
   "property": "C41",
   "status": "proved",
   "theorems": [
    "C41_accepted",
    "C41_example",
    "C41_printed"
   ],
   "note": ""
  },
  {
   "property": "C42",
   "status": "partial",
   "theorems": [
    "C42_accepted_partial",
    "C42_ends_in_digit",
    "C42_refuted"
   ],
   "note": "The property fails (C42_refuted): texts that break off with one stray character are accepted. C42_accepted_partial characterises exactly what is accepted and stored for every string."
  },
  {
   "property": "C43",
   "status": "proved",
   "theorems": [
    "C43_equal",
    "C43_equivalence",
    "C43_less",
    "C43_order",
    "C43_example",
    "C43_null"
   ],
   "note": ""
  },
  {
   "property": "C44",
   "status": "partial",
   "theorems": [
    "C44_is_ip_address",
    "C44_defined",
    "C44_new_defined",
    "C44_full",
    "C44_compressed_partial",
    "C44_bracketed_partial",
    "C44_bracketed_refuted",
    "C44_example",
    "C44_refuted",
    "C44_printed"
   ],
   "note": "Full forms and printing exact for all inputs. Compressed text exact in the shapes listed by `manageable`; other shapes and bracketed compressed text with several groups after :: are stored wrongly or rejected (C44_bracketed_refuted, C44_refuted). Parsing is free of undefined behaviour on every string."
  },
  {
   "property": "C45",
   "status": "proved",
   "theorems": [
    "C45_encode_decode",
    "C45_encoded_is_string",
    "C45_encoded_no_raw_control",
    "C45_control_refuted"
   ],
   "note": "Round trip for every NUL-free string; between quotes the encoded text is a JSON string; no raw \\b \\t \\n \\f \\r. Other control characters (0x01..) are written raw (C45_control_refuted), beyond the property's newline/tab."
  },
  {
   "property": "C46",
   "status": "partial",
   "theorems": [
    "C46_parse_text_partial",
    "C46_text_unambiguous",
    "C46_pretty_round_trip_partial",
    "C46_compact_round_trip_partial",
    "C46_string_iff",
    "C46_string_refuted",
    "C46_key_refuted",
    "C46_real_refuted",
    "C46_unicode_escape_refuted",
    "C46_not_json_refuted"
   ],
   "note": "False as stated: string values are unescaped twice (exact set of surviving strings: C46_string_iff), member names are not escaped, reals longer than 31 characters are cut. Proved for all portable trees (these three excluded), for both writers, plus: every text of the RFC grammar (without \\u escapes) is parsed to the tree it denotes."
  },
  {
   "property": "C47",
   "status": "proved",
   "theorems": [
    "C47_object_histories",
    "C47_append_order",
    "C47_array_remove_range",
    "C47_array_access",
    "C47_merge_arrays",
    "C47_merge_objects",
    "C47_merge_object_array"
   ],
   "note": "Histories of append/remove/detach/get/length/reverse; order of members; arrays; JsonMerge on copyable trees. JsonObjectMergeDeepInplace does not exist at this commit."
  },
  {
   "property": "C48",
   "status": "proved",
   "theorems": [
    "C48_same_text",
    "C48_names_ascend",
    "C48_sort_is_SeqSort"
   ],
   "note": "Same text for trees equal up to member order (distinct names), names ascend in the text, and the model's sort is what the SeqSort model computes."
  },
  {
   "property": "C49",
   "status": "partial",
   "theorems": [
    "C49_copy_partial",
    "C49_int_create_copies",
    "C49_int64_refuted",
    "C49_exponent_refuted",
    "C49_compare_exact",
    "C49_compare_equal_partial",
    "C49_compare_refuted"
   ],
   "note": "False as stated: JsonCopy truncates 64-bit integers to int and exits on 1e5; JsonCompare compares each child of the first container with itself, so it ignores contents (exact characterisation proved). JsonCopy is proved to return an equal tree for all trees whose numbers print back; independence of the copy is not visible in a functional model."
  },
  {
   "property": "C50",
   "status": "partial",
   "theorems": [
    "C50_safe_partial",
    "C50_refuted"
   ],
   "note": "Proved for every input that does not end in a backslash; a string literal ending in a backslash at the end of the input makes the parser step over the terminator (C50_refuted). Recursion depth (stack) is not modelled."
  },
  {
   "property": "C51",
   "status": "partial",
   "theorems": [
    "C51_rendering_is_exact",
    "C51_sections_restore_the_scope_partial",
    "C51_text_is_copied",
    "C51_strings_are_escaped",
    "C51_escaping_is_safe",
    "C51_sections_restore_the_scope_refuted",
    "C51_hidden_sections_stay_hidden_refuted",
    "C51_closing_names_match_refuted",
    "C51_any_template_is_safe_refuted",
    "C51_dots_are_a_name_refuted",
    "C51_rendering_returns_refuted"
   ],
   "note": "Exact rendering is proved for all well-formed templates over the default delimiters (text, five kinds of variables, comments, sections nested to any depth, standalone lines) and all sorted data, against a separate AST semantics with the implementation's scope quirks; against the ideal semantics only for templates whose nested sections do not iterate (refuted otherwise by a counterexample). Templates that change delimiters are modelled but not in the exact theorem."
  },
  {
   "property": "C52",
   "status": "proved",
   "theorems": [
    "C52_FullWrite",
    "C52_FullWrite_at",
    "C52_FullWrite_returns",
    "C52_FullRead",
    "C52_FullRead_returns",
    "C52_zero_writes_refuted"
   ],
   "note": "Includes termination whenever the kernel makes progress; a kernel that keeps returning 0 from write(2) makes FullWrite spin (C52_zero_writes_refuted)."
  },
  {
   "property": "C53",
   "status": "proved",
   "theorems": [
    "C53_cleanup_linearizable",
    "C53_exclusion_and_safety",
    "C53_exactly_once",
    "C53_reentrant_refuted"
   ],
   "note": ""
  },
  {
   "property": "C54",
   "status": "proved",
   "theorems": [
    "C54_refcount",
    "C54_no_leak",
    "C54_last_owner_refuted"
   ],
   "note": ""
  },
  {
   "property": "C55",
   "status": "proved",
   "theorems": [
    "C55_StringBytesToHex",
    "C55_hex_injective",
    "C55_StringBytesToHex_injective",
    "C55_StringCanonify",
    "C55_CanonifyNameInPlace"
   ],
   "note": ""
  },
  {
   "property": "C56",
   "status": "partial",
   "theorems": [
    "C56_rbtree_destroys_once_partial",
    "C56_clear_destroys_null_refuted"
   ],
   "note": "each key and value exactly once is proved; 'nothing else' is false: every RBTreeClear also passes NULL to both callbacks, see the _refuted theorem"
  },
  {
   "property": "C57",
   "status": "proved",
   "theorems": [
    "C57_equal_iff_same_entries"
   ],
   "note": ""
  },
  {
   "property": "C58",
   "status": "proved",
   "theorems": [
    "C58_StringStartsWith",
    "C58_StringEndsWith",
    "C58_StringEndsWithCase",
    "C58_StringMatchesOption"
   ],
   "note": ""
  },
  {
   "property": "C59",
   "status": "proved",
   "theorems": [
    "C59_StringConcatenate"
   ],
   "note": ""
  },
  {
   "property": "C60",
   "status": "partial",
   "theorems": [
    "C60_ToLowerStrInplace",
    "C60_ToUpperStrInplace_partial"
   ],
   "note": "lower-casing is proved for all strings; upper-casing for printable text without blanks, see C60_ToUpper_refuted"
  },
  {
   "property": "C61",
   "status": "proved",
   "theorems": [
    "C61_ReplaceChar",
    "C61_ReplaceTrailingChar",
    "C61_StringCloseHole",
    "C61_memcchr",
    "C61_predicates",
    "C61_StringNotMatchingSetCapped",
    "C61_ScanPastChars"
   ],
   "note": ""
  },
  {
   "property": "C62",
   "status": "partial",
   "theorems": [
    "C62_FileRead",
    "C62_nul_refuted"
   ],
   "note": "Proved for files without NUL bytes; with NUL bytes the result depends on the chunking (C62_nul_refuted)."
  },
  {
   "property": "C63",
   "status": "proved",
   "theorems": [
    "C63_sparse_copy",
    "C63_zero_block_refuted",
    "C63_close_needed_refuted",
    "C63_old_content_refuted"
   ],
   "note": "For a new destination file and a non-zero block size; the other cases are refuted."
  },
  {
   "property": "C64",
   "status": "partial",
   "theorems": [
    "C64_FromString",
    "C64_FromString_null",
    "C64_trailing_piece_refuted",
    "C64_Contains",
    "C64_Length"
   ],
   "note": "SeqStringFromString drops a trailing empty piece, SeqStringLength overflows past INT_MAX; everything else exact."
  },
  {
   "property": "C65",
   "status": "proved",
   "theorems": [
    "C65_IsAbsoluteFileName",
    "C65_MapNameForward",
    "C65_MapNameForward_result_refuted"
   ],
   "note": ""
  },
  {
   "property": "C66",
   "status": "partial",
   "theorems": [
    "C66_ipv4",
    "C66_ipv6_partial",
    "C66_port_refuted",
    "C66_refuted",
    "C66_example"
   ],
   "note": "Digits are read exactly; the port of an IPv6 address without one is never written (C66_port_refuted) and signs are accepted in place of digits (C66_refuted)."
  },
  {
   "property": "C67",
   "status": "proved",
   "theorems": [
    "C67_walk_preorder"
   ],
   "note": "For all trees, visitors and states."
  },
  {
   "property": "C68",
   "status": "partial",
   "theorems": [
    "C68_select_partial",
    "C68_empty_index_refuted"
   ],
   "note": "Proved for all paths whose indices are not empty and fit a long; otherwise an array index ends the process (C68_empty_index_refuted)."
  },
  {
   "property": "C69",
   "status": "partial",
   "theorems": [
    "C69_escape5_partial",
    "C69_nul_digit_refuted",
    "C69_printable",
    "C69_injective"
   ],
   "note": "Printable and injective for all data; denotes the data in JSON5 unless a NUL byte directly precedes a digit (\\0 followed by a digit is not JSON5: C69_nul_digit_refuted)."
  },
  {
   "property": "C70",
   "status": "partial",
   "theorems": [
    "C70_memmem_partial",
    "C70_memmem_refuted",
    "C70_strstr_partial",
    "C70_strstr_refuted",
    "C70_strcasestr_partial",
    "C70_strcasestr_refuted"
   ],
   "note": "Proved for all inputs except that memmem, strstr and strcasestr return NULL for an empty needle in an empty haystack (refuted), and strcasestr calls tolower() with negative values for bytes above 127 (refuted)."
  },
  {
   "property": "C71",
   "status": "partial",
   "theorems": [
    "C71_strrstr_partial",
    "C71_strrstr_refuted"
   ],
   "note": "strrstr overlooks an occurrence at offset 0 (C71_strrstr_refuted); everything else is proved."
  },
  {
   "property": "C72",
   "status": "partial",
   "theorems": [
    "C72_memrchr",
    "C72_strnlen",
    "C72_strndup",
    "C72_strdup",
    "C72_memdup",
    "C72_strchrnul",
    "C72_stpncpy_partial"
   ],
   "note": "stpncpy counts with an int: proved for lengths up to INT_MAX.  The other functions are proved without restriction."
  },
  {
   "property": "C73",
   "status": "partial",
   "theorems": [
    "C73_strcasecmp_partial",
    "C73_strncasecmp_partial",
    "C73_strcasecmp_refuted"
   ],
   "note": "For 7-bit strings; other bytes are passed to tolower() as negative ints (C73_strcasecmp_refuted)."
  },
  {
   "property": "C74",
   "status": "proved",
   "theorems": [
    "C74_strsep_token",
    "C74_strsep_last",
    "C74_strsep_splits",
    "C74_separated_unique"
   ],
   "note": ""
  },
  {
   "property": "C75",
   "status": "proved",
   "theorems": [
    "C75_getline",
    "C75_all_lines",
    "C75_lines_unique"
   ],
   "note": ""
  },
  {
   "property": "C76",
   "status": "partial",
   "theorems": [
    "C76_env_line_partial",
    "C76_total",
    "C76_unique",
    "C76_dangling_refuted"
   ],
   "note": "Holds for every line except those whose right-hand side ends in a lone backslash, where the code skips the terminator and runs on (C76_dangling_refuted)."
  },
  {
   "property": "C77",
   "status": "partial",
   "theorems": [
    "C77_env_file_partial",
    "C77_well_defined",
    "C77_lines_exist",
    "C77_no_file",
    "C77_last_definition",
    "C77_dangling_refuted"
   ],
   "note": "Holds for every file whose lines within the limit have no dangling backslash (C77_dangling_refuted otherwise), for every size limit and read error; allocation failure is excluded (getline would stop early and the file be reported as unreadable)."
  },
  {
   "property": "C78",
   "status": "proved",
   "theorems": [
    "C78_read_lines",
    "C78_csv_file",
    "C78_csv_file_round_trip"
   ],
   "note": ""
  },
  {
   "property": "C79",
   "status": "proved",
   "theorems": [
    "C79_type_by_name",
    "C79_type_by_suffix"
   ],
   "note": ""
  },
  {
   "property": "C80",
   "status": "partial",
   "theorems": [
    "C80_key_value_partial",
    "C80_key_numeric_partial",
    "C80_long_line_refuted"
   ],
   "note": "Holds for all files whose lines are shorter than 1023 bytes; longer lines are cut by fgets and their value is split (C80_long_line_refuted). sscanf is a parameter."
  },
  {
   "property": "C81",
   "status": "partial",
   "theorems": [
    "C81_substitute_meaning",
    "C81_search_and_replace_partial",
    "C81_bad_pattern",
    "C81_empty_match_refuted",
    "C81_before_refuted",
    "C81_behind_refuted",
    "C81_nul_refuted",
    "C81_many_references_refuted",
    "C81_out_of_range_refuted",
    "C81_non_ascii_refuted",
    "C81_many_groups_refuted"
   ],
   "note": "PCRE is an oracle answering within the subject. Proved for substitutes with at most 32 references, to groups up to 32, without $` and $', \\0, or non-ASCII bytes right behind $ or a reference, and, with option g, when empty matches are found only at the search offset. Each restriction is necessary: see the C81_*_refuted theorems."
  },
  {
   "property": "C82",
   "status": "proved",
   "theorems": [
    "C82_options"
   ],
   "note": ""
  },
  {
   "property": "C83",
   "status": "proved",
   "theorems": [
    "C83_HashPrintable",
    "C83_HashNew",
    "C83_HashNew_null",
    "C83_HashNewFromDescriptor",
    "C83_HashNewFromDescriptor_returns",
    "C83_HashNewFromDescriptor_failed_read_refuted",
    "C83_HashNewFromKey",
    "C83_HashCopy",
    "C83_HashEqual",
    "C83_printable_injective",
    "C83_names",
    "C83_unknown_name",
    "C83_sizes"
   ],
   "note": "OpenSSL is an oracle giving digests of the right size. For HashNewFromDescriptor the claim is about reads that do not fail: a failed or interrupted read(2) is passed on as a length, which is undefined behaviour (C83_HashNewFromDescriptor_failed_read_refuted)."
  },
  {
   "property": "C84",
   "status": "proved",
   "theorems": [
    "C84_HashString",
    "C84_HashFile",
    "C84_HashFile_missing",
    "C84_HashPubKey",
    "C84_HashesMatch",
    "C84_HashesMatch_unusable",
    "C84_HashPrintSafe",
    "C84_SkipHashType"
   ],
   "note": "A read error in HashFile is indistinguishable from the end of the file in the model (fread returns a short count in both cases and the code does not look further)."
  },
  {
   "property": "C85",
   "status": "proved",
   "theorems": [
    "C85_StringCopyTruncateAndHashIfNecessary",
    "C85_distinct",
    "C85_no_md5_refuted"
   ],
   "note": "When OpenSSL has no MD5 (FIPS mode) the digest is all zeros and strings become indistinguishable (C85_no_md5_refuted)."
  },
  {
   "property": "C86",
   "status": "proved",
   "theorems": [
    "C86_safe_open",
    "C86_safe_creat"
   ],
   "note": ""
  },
  {
   "property": "C87",
   "status": "partial",
   "theorems": [
    "C87_every_component_checked",
    "C87_root_not_led_astray",
    "C87_chain_of_links_refuted",
    "C87_own_links_refuted",
    "C87_foreign_links_refuted",
    "C87_switched_link_refuted"
   ],
   "note": "Proved for the trust rule the code implements (root, and the user whose number is 1 when the process is not root: `bool p_uid = geteuid()`). Refuted for the documented rule: own links are not followed (C87_own_links_refuted), links of user 1 are (C87_foreign_links_refuted), only the first link of a chain of links is checked (C87_chain_of_links_refuted), and a file of root can be switched for a foreign link (C87_switched_link_refuted)."
  },
  {
   "property": "C88",
   "status": "proved",
   "theorems": [
    "C88_same_file_as_open",
    "C88_resolution_unique",
    "C88_untrusted_link",
    "C88_creates",
    "C88_mode_of_new_files",
    "C88_creat_existing",
    "C88_excl_existing",
    "C88_dangling_link",
    "C88_root_for_writing_refuted"
   ],
   "note": "Opening / for writing succeeds with a read-only descriptor (C88_root_for_writing_refuted)."
  },
  {
   "property": "C89",
   "status": "partial",
   "theorems": [
    "C89_lchown",
    "C89_chown",
    "C89_quiet_lchown",
    "C89_quiet_chown_partial",
    "C89_chown_of_link_refuted"
   ],
   "note": "safe_chown of a symlink uses the link's own name in the target's directory and changes a bystander (C89_chown_of_link_refuted)."
  },
  {
   "property": "C90",
   "status": "proved",
   "theorems": [
    "C90_chmod",
    "C90_chdir",
    "C90_fopen_flags",
    "C90_fopen_truncates_only_for_writing"
   ],
   "note": ""
  },
  {
   "property": "C91",
   "status": "partial",
   "theorems": [
    "C91_notation_total",
    "C91_vsnprintf_partial",
    "C91_length_only_partial",
    "C91_precision_zero_refuted",
    "C91_char_width_refuted",
    "C91_smallest_number_refuted",
    "C91_unterminated_string_refuted",
    "C91_float_text_total",
    "C91_too_large_for_f",
    "C91_infinity_byte",
    "C91_float_precision_refuted",
    "C91_float_large_refuted",
    "C91_float_exponent_refuted",
    "C91_minus_zero_refuted"
   ],
   "note": "Missing: locales with a thousands separator or another decimal point, %a (which the code treats as %f). A double or long double is an exact rational number in the model, and the arithmetic in long double is exact: what its 64-bit mantissa rounds is not modelled; C99 leaves the rounding of a half open, the specification rounds it up. Excluded because the code departs from C99 there: precision 0 with value 0 prints 0 (C91_precision_zero_refuted), the width of %c is ignored (C91_char_width_refuted), the smallest 64-bit number is undefined behaviour (C91_smallest_number_refuted), %.Ns reads one character beyond an array of N characters (C91_unterminated_string_refuted), precision INT_MAX with 0x overflows an int, -0 loses its sign (C91_minus_zero_refuted), more than 19 digits after the decimal point are not printed (C91_float_precision_refuted), numbers from 2^64 - 1 on are an error with %f (C91_too_large_for_f, C91_float_large_refuted), exponents of three digits are cut and the digits adapted (C91_float_exponent_refuted)."
  },
  {
   "property": "C92",
   "status": "proved",
   "theorems": [
    "C92_never_outside",
    "C92_width_too_large",
    "C92_precision_too_large"
   ],
   "note": "Long double arithmetic is exact in the model. Arguments of the wrong type are undefined behaviour in C; the theorem is about the runs that are defined."
  },
  {
   "property": "C93",
   "status": "partial",
   "theorems": [
    "C93_vasprintf_partial",
    "C93_any_format"
   ],
   "note": "The formats of C91 (C93_vasprintf_partial); for all other formats: an own, terminated string of the measured size or -1 (C93_any_format). malloc may fail."
  },
  {
   "property": "C94",
   "status": "proved",
   "theorems": [
    "C94_get_context",
    "C94_routing",
    "C94_would_log",
    "C94_threads_isolated"
   ],
   "note": ""
  },
  {
   "property": "C95",
   "status": "proved",
   "theorems": [
    "C95_from_string",
    "C95_null",
    "C95_round_trip",
    "C95_argument"
   ],
   "note": ""
  },
  {
   "property": "C96",
   "status": "proved",
   "theorems": [
    "C96_enable_modules",
    "C96_debug"
   ],
   "note": ""
  },
  {
   "property": "C97",
   "status": "proved",
   "theorems": [
    "C97_raw",
    "C97_forced_hook_refuted"
   ],
   "note": "That LogRaw reaches the same places as Log is refuted: a hook forced for the level is not run (C97_forced_hook_refuted)."
  },
  {
   "property": "C98",
   "status": "proved",
   "theorems": [
    "C98_magnitude"
   ],
   "note": ""
  },
  {
   "property": "C99",
   "status": "partial",
   "theorems": [
    "C99_mutual_exclusion",
    "C99_claims_are_held",
    "C99_end_of_process",
    "C99_own_process_refuted"
   ],
   "note": "Between processes. Inside one process the claim is refuted (POSIX): a second FileLock for the same file is granted and closing it drops the first (C99_own_process_refuted).  Processes may end (be killed) at any moment; then their locks are gone and nobody else's (C99_end_of_process)."
  },
  {
   "property": "C100",
   "status": "partial",
   "theorems": [
    "C100_results",
    "C100_waiting",
    "C100_check",
    "C100_descriptors_partial",
    "C100_descriptor_leak_refuted"
   ],
   "note": "Descriptors: except after failed LockPath calls, which leak the opened descriptor (C100_descriptor_leak_refuted)."
  },
  {
   "property": "C101",
   "status": "proved",
   "theorems": [
    "C101_dir_open",
    "C101_undisturbed"
   ],
   "note": ""
  },
  {
   "property": "C102",
   "status": "partial",
   "theorems": [
    "C102_delete",
    "C102_nothing_left",
    "C102_absolute",
    "C102_descriptors",
    "C102_untrusted_link",
    "C102_race_refuted",
    "C102_own_contents_refuted",
    "C102_long_paths_refuted",
    "C102_endless_refuted"
   ],
   "note": "Proved without interference, when the paths of everything below fit into PATH_MAX and the path does not go through the directory's own contents; refuted otherwise: a user owning part of the tree can make it delete others' files (C102_race_refuted), own contents, truncated paths that return true with files left, endless recursion at PATH_MAX-2."
  },
  {
   "property": "C103",
   "status": "partial",
   "theorems": [
    "C103_pton",
    "C103_meaning",
    "C103_ntop",
    "C103_round_trip",
    "C103_other",
    "C103_three_digits_refuted",
    "C103_ipv6_refuted"
   ],
   "note": "Proved as stated; refuted: numbers of more than three digits (leading zeros) are accepted, which POSIX excludes (C103_three_digits_refuted); inet_pton refuses all IPv6 text since INET6 is never defined, although inet_ntop writes it (C103_ipv6_refuted)."
  },
  {
   "property": "C104",
   "status": "partial",
   "theorems": [
    "C104_address",
    "C104_ntop",
    "C104_meaning",
    "C104_pton6",
    "C104_pton6_exact",
    "C104_round_trip",
    "C104_pton6_refuted"
   ],
   "note": "Proved as stated, with the exact set of texts inet_pton6 accepts; refuted that it only accepts addresses (C104_pton6_refuted: final colon, :: for nothing loses groups, long groups). inet_pton6 is compiled only if INET6 is defined."
  },
  {
   "property": "C105",
   "status": "proved",
   "theorems": [
    "C105_destroy_maybe",
    "C105_call",
    "C105_program",
    "C105_no_leak",
    "C105_destroy",
    "C105_values",
    "C105_own_name_refuted",
    "C105_replaced_name_refuted",
    "C105_shared_refuted"
   ],
   "note": "Proved as stated for programs that follow the rules of JsonHeapSpec.rule (every call is covered by a rule; ownership is in the rules). That the rules are needed is shown: a key that is the name of the element itself or of the member it replaces is read after it was freed (C105_own_name_refuted, C105_replaced_name_refuted), an element in two containers is freed twice (C105_shared_refuted). JsonArrayExtend(a, a) never ends (SeqAppendSeq onto itself): outside of the rules. Addresses are never reused in the model."
  },
  {
   "property": "C106",
   "status": "proved",
   "theorems": [
    "C106_current_types",
    "C106_property",
    "C106_object_typed",
    "C106_array_get",
    "C106_primitives",
    "C106_containers",
    "C106_iterate",
    "C106_position",
    "C106_iterate_keys",
    "C106_iterate_by_type",
    "C106_yields_unique",
    "C106_replace_in_loop_refuted"
   ],
   "note": "Proved as stated for containers that do not change during the iteration; refuted otherwise: replacing the current member skips the next one (C106_replace_in_loop_refuted). The type functions of an iterator without current value dereference NULL (C106_position)."
  },
  {
   "property": "C107",
   "status": "proved",
   "theorems": [
    "C107_override",
    "C107_root",
    "C107_user",
    "C107_stable",
    "C107_fits",
    "C107_too_long_refuted",
    "C107_no_home_refuted"
   ],
   "note": "Proved as stated; refuted: a path that is too long gives NULL at the first call and the text cut off at the next ones (C107_too_long_refuted); a user without a password entry makes GetInputDir print NULL with %s (C107_no_home_refuted)."
  },
  {
   "property": "C108",
   "status": "partial",
   "theorems": [
    "C108_document_partial",
    "C108_copy",
    "C108_meaning",
    "C108_ends",
    "C108_empty_refuted",
    "C108_syntax_error_refuted",
    "C108_alias_refuted",
    "C108_key_refuted",
    "C108_numbers_refuted"
   ],
   "note": "Proved for documents whose numbers the final JsonCopy keeps (integers in the range of int in canonical form, reals as %.4f prints them) (C108_document_partial); for all others the result is proved to be a JsonCopy of the value (C108_copy), which changes integers from 2^31 and stops the program at 1e5 (C108_numbers_refuted). Refuted: an empty text stops the program (C108_empty_refuted); a syntax error is not reported, what was read so far is returned as OK (C108_syntax_error_refuted); aliases are passed over and mispair the keys behind them (C108_alias_refuted); a container as key stops the program (C108_key_refuted)."
  },
  {
   "property": "C109",
   "status": "proved",
   "theorems": [
    "C109_scalar",
    "C109_all",
    "C109_quoted",
    "C109_tagged",
    "C109_prefix_refuted",
    "C109_nul_refuted"
   ],
   "note": "Proved for every scalar that does not begin like a number without being one (C109_all says these are all that is left out); of those, a number followed by a space, comma or bracket is cut to the number: 12 apples is 12 (C109_prefix_refuted). A NUL in a quoted scalar cuts it (C109_nul_refuted)."
  },
  {
   "property": "C110",
   "status": "partial",
   "theorems": [
    "C110_match",
    "C110_full_partial",
    "C110_full_sound",
    "C110_partial_match",
    "C110_compile",
    "C110_many_groups_refuted",
    "C110_alternative_refuted"
   ],
   "note": "Proved where at most nine groups take part (C110_full_partial for patterns with at most nine groups; never a wrong yes for a non-empty text: C110_full_sound). With ten the offset vector is too small and a match of the whole text is denied (C110_many_groups_refuted). A pattern whose first alternative is shorter is denied too: a|ab for ab (C110_alternative_refuted)."
  },
  {
   "property": "C111",
   "status": "proved",
   "theorems": [
    "C111_captures",
    "C111_data"
   ],
   "note": "Proved for every pattern for which PCRE answers as documented (spans with start <= end); names that are distinct and do not begin with a digit, as PCRE requires, for StringCaptureData."
  },
  {
   "property": "C112",
   "status": "proved",
   "theorems": [
    "C112_order",
    "C112_put",
    "C112_get",
    "C112_peer_refuted",
    "C112_lost_refuted",
    "C112_long"
   ],
   "note": "Proved for senders that use Put and a receiver with a free descriptor. Refuted: without a free descriptor what was passed is lost (C112_lost_refuted); another peer can make Get fail an assert with two descriptors, or read past its buffer with 1024 bytes without NUL (C112_peer_refuted). On Linux; the Windows and BSD variants are not modelled."
  },
  {
   "property": "C113",
   "status": "proved",
   "theorems": [
    "C113_copy_frame",
    "C113_copy_true",
    "C113_copy_succeeds",
    "C113_copy_reports",
    "C113_copy_to_itself_refuted",
    "C113_copy_to_dir",
    "C113_read_stream"
   ],
   "note": "Path resolution is C88 ff.; here opening is an oracle. Buffered output is taken to reach the file as written. Refuted: a file copied to itself (source and destination the same inode) is emptied, with result true (C113_copy_to_itself_refuted)."
  },
  {
   "property": "C114",
   "status": "proved",
   "theorems": [
    "C114_listdir",
    "C114_listdir_fails",
    "C114_listdir_children_refuted",
    "C114_glob",
    "C114_glob_any_depth_refuted"
   ],
   "note": "glob and readdir are oracles. Refuted: without extension ListDir lists . and .. too (C114_listdir_children_refuted); two asterisks do not stand for any number of directories: not for none, not for more than five, and two pairs must stand for equally many (C114_glob_any_depth_refuted)."
  },
  {
   "property": "C115",
   "status": "proved",
   "theorems": [
    "C115_umask",
    "C115_close_on_exec"
   ],
   "note": "Linux: FD_CLOEXEC is the only descriptor flag."
  },
  {
   "property": "C116",
   "status": "proved",
   "theorems": [
    "C116_getaddrinfo",
    "C116_always_refused",
    "C116_free",
    "C116_port",
    "C116_service_refuted"
   ],
   "note": "The resolver is an oracle. Refuted: a service that is no port number is not refused, numbers wrap modulo 65536, a host without addresses gives success without entry (C116_service_refuted)."
  },
  {
   "property": "C117",
   "status": "proved",
   "theorems": [
    "C117_host",
    "C117_service",
    "C117_arguments",
    "C117_getnameinfo",
    "C117_service_name_refuted"
   ],
   "note": "The resolver and the database of services are oracles; little-endian machine. Refuted: the service name is that of the port with swapped bytes, as getservbyport is called with the port in host order (C117_service_name_refuted)."
  },
  {
   "property": "C118",
   "status": "proved",
   "theorems": [
    "C118_in_directory",
    "C118_directory_restored",
    "C118_descriptors",
    "C118_calls",
    "C118_progress",
    "C118_criterion_2_refuted"
   ],
   "note": "A labelled transition system: open, fchdir and the system call can fail, errno and lock failures are not modelled; the program closes no descriptor a call in progress uses. Refuted: criterion 2 of the comment in generic_at.c (that the program changes its directory nowhere else) does not suffice for code outside of these functions to be in its own directory (C118_criterion_2_refuted)."
  },
  {
   "property": "C119",
   "status": "proved",
   "theorems": [
    "C119_to_wide",
    "C119_from_wide",
    "C119_round_trip",
    "C119_high_byte_refuted",
    "C119_size_zero_refuted"
   ],
   "note": "Refuted: bytes above 127 are sign-extended and do not come back (C119_high_byte_refuted); a size of 0 wraps around and overflows (C119_size_zero_refuted)."
  },
  {
   "property": "C120",
   "status": "proved",
   "theorems": [
    "C120_unsetenv",
    "C120_unsetenv_refused",
    "C120_environment",
    "C120_duplicates_refuted",
    "C120_mkdtemp",
    "C120_mkdtemp_refused",
    "C120_names",
    "C120_bare_template_refuted",
    "C120_stdin_refuted"
   ],
   "note": "Refuted: a variable that occurs twice stays set (C120_duplicates_refuted); the template XXXXXX alone is refused (C120_bare_template_refuted); every successful mkdtemp closes descriptor 0, as it takes the 0 mkdir returns for a descriptor (C120_stdin_refuted)."
  },
  {
   "property": "C121",
   "status": "proved",
   "theorems": [
    "C121_proc",
    "C121_any_listing",
    "C121_bad_entry",
    "C121_without_proc",
    "C121_limit_refuted"
   ],
   "note": "The branches with F_CLOSEM and pstat are not modelled. Refuted without /proc: descriptors above a lowered limit stay open (C121_limit_refuted)."
  },
  {
   "property": "C122",
   "status": "proved",
   "theorems": [
    "C122_text_string",
    "C122_text_bool",
    "C122_text_integer",
    "C122_text_null",
    "C122_to_json",
    "C122_from_json",
    "C122_strings",
    "C122_round_trip",
    "C122_not_array",
    "C122_nested_refuted"
   ],
   "note": "Texts of reals are an oracle (%.2f of strtod). Refuted: that only one level is accepted (C122_nested_refuted, a comment in the code concedes it)."
  },
  {
   "property": "C123",
   "status": "proved",
   "theorems": [
    "C123_range",
    "C123_seeds",
    "C123_one_character",
    "C123_prefix"
   ],
   "note": ""
  },
  {
   "property": "C124",
   "status": "proved",
   "theorems": [
    "C124_IsStrIn",
    "C124_IsStrCaseIn",
    "C124_TrimCSVLineCRLFStrict",
    "C124_high_byte_refuted"
   ],
   "note": "Refuted: that text beyond ASCII can be given (C124_high_byte_refuted: isspace of a negative char is undefined)."
  },
  {
   "property": "C125",
   "status": "proved",
   "theorems": [
    "C125_StringEncodeBase64",
    "C125_empty",
    "C125_injective"
   ],
   "note": "OpenSSL's BIO chain is modelled by what it writes: base 64 in lines of 64 characters, each with a newline."
  },
  {
   "property": "C126",
   "status": "proved",
   "theorems": [
    "C126_whole_file",
    "C126_outcomes",
    "C126_leak_refuted",
    "C126_json_data",
    "C126_round_trip",
    "C126_not_data",
    "C126_yaml_data",
    "C126_csv_data",
    "C126_JsonParseFile",
    "C126_JsonParseYamlFile"
   ],
   "note": "Refuted: that the memory is given back when the file is longer than the limit (C126_leak_refuted: the text read is never freed). libyaml is an oracle for events; the ENV reader is C77."
  },
  {
   "property": "C127",
   "status": "proved",
   "theorems": [
    "C127_RSA_set0_key",
    "C127_RSA_set0_factors",
    "C127_RSA_set0_crt_params",
    "C127_DSA_set0_pqg",
    "C127_DSA_set0_key",
    "C127_DH_set0_key",
    "C127_SIG_set0",
    "C127_DH_set0_pqg",
    "C127_RSA_history",
    "C127_DSA_history",
    "C127_DH_history",
    "C127_SIG_history",
    "C127_get",
    "C127_same_number_refuted"
   ],
   "note": "Refuted: that a number the key already holds may be passed again (C127_same_number_refuted: it is freed and still held)."
  },
  {
   "property": "C128",
   "status": "proved",
   "theorems": [
    "C128_dup",
    "C128_set1_name",
    "C128_functions",
    "C128_free",
    "C128_life"
   ],
   "note": ""
  },
  {
   "property": "C129",
   "status": "proved",
   "theorems": [
    "C129_help_text",
    "C129_help_tells_all"
   ],
   "note": "Refuted: an option of value 0 passes for one with a one-letter form (C129_zero_refuted); the claim is for values from 1."
  },
  {
   "property": "C130",
   "status": "partial",
   "theorems": [
    "C130_man_page_partial"
   ],
   "note": "Proved for options that all have a one-letter form and names of printable characters. Refuted: an option without one gets the low byte of its value, and if that is 0 its hint is lost (C130_long_only_refuted); a blank in the name cuts the title (C130_blank_refuted). gmtime_r and strftime are a parameter."
  },
  {
   "property": "C131",
   "status": "partial",
   "theorems": [
    "C131_never_null",
    "C131_no_bytes",
    "C131_granted",
    "C131_no_memory",
    "C131_does_not_return",
    "C131_too_much",
    "C131_register",
    "C131_register_refuted",
    "C131_cleanup_refuted"
   ],
   "note": "Proved when the cleanup functions neither allocate, register functions nor call DoCleanupAndExit (C131_no_memory); in all other cases the caller does not go on (C131_does_not_return), but the process can hang for ever on cleanup_functions_mutex: RegisterCleanupFunction without memory (C131_register_refuted), a cleanup function without memory (C131_cleanup_refuted). One thread; the allocator is an oracle."
  },
  {
   "property": "C132",
   "status": "proved",
   "theorems": [
    "C132_putenv",
    "C132_putenv_fails"
   ],
   "note": "On Linux, where setenv_wrapper is setenv (modelled on a list of entries); the branch for other systems writes to a const array and is not modelled."
  },
  {
   "property": "C133",
   "status": "partial",
   "theorems": [
    "C133_fits",
    "C133_truncated",
    "C133_any_format",
    "C133_too_long",
    "C133_size_zero_refuted"
   ],
   "note": "vsnprintf is the model of libcompat/snprintf.c (C91-C93), with its restrictions. With size 0 a text of INT_MAX characters makes it write outside of the buffer (C133_size_zero_refuted)."
  },
  {
   "property": "C134",
   "status": "partial",
   "theorems": [
    "C134_printf",
    "C134_append",
    "C134_any_format",
    "C134_too_long",
    "C134_failure_keeps_the_text_refuted"
   ],
   "note": "vsnprintf and vasprintf are the models of libcompat/snprintf.c (C91-C93), with the restrictions of C91 on the formats; what %n stores is left out. A BufferPrintf that fails loses the text (C134_failure_keeps_the_text_refuted)."
  },
  {
   "property": "C135",
   "status": "partial",
   "theorems": [
    "C135_format",
    "C135_format_fails",
    "C135_never_null",
    "C135_double",
    "C135_large_double_refuted"
   ],
   "note": "vsnprintf and vasprintf are the models of libcompat/snprintf.c (C91-C93), with the restrictions of C91 on the formats; what %n stores is left out. From 2^64 on StringFromDouble ends the process (C135_large_double_refuted)."
  },
  {
   "property": "C136",
   "status": "partial",
   "theorems": [
    "C136_vfprintf",
    "C136_vfprintf_fails",
    "C136_write_error_refuted",
    "C136_writer",
    "C136_csv"
   ],
   "note": "vsnprintf and vasprintf are the models of libcompat/snprintf.c (C91-C93), with the restrictions of C91 on the formats; what %n stores is left out. After a write error rpl_vfprintf gives the number of characters written instead of a negative number (C136_write_error_refuted). WriterWriteF is about string writers (malloc'ed text); file writers are those of C136_vfprintf through fwrite."
  },
  {
   "property": "C137",
   "status": "proved",
   "theorems": [
    "C137_expectation",
    "C137_variance",
    "C137_weights",
    "C137_between",
    "C137_never_negative",
    "C137_last"
   ],
   "note": "Doubles are rational numbers without infinities and NaN; the exact formulas are about exact arithmetic, the signs hold for every monotone rounding that keeps 0 and 1."
  },
  {
   "property": "C138",
   "status": "proved",
   "theorems": [
    "C138_round"
   ],
   "note": "Doubles are rational numbers m*2^e in the binary64 range; the sign of zero is not modelled."
  },
  {
   "property": "C139",
   "status": "proved",
   "theorems": [
    "C139_light_iterators"
   ],
   "note": "For lists that do not change while the iterator walks; what happens to it then is C20_iterators_notice_removals and C20_stale_iterator_refuted."
  },
  {
   "property": "C140",
   "status": "partial",
   "theorems": [
    "C140_duplicate_null",
    "C140_duplicate",
    "C140_nduplicate",
    "C140_length_partial",
    "C140_length_refuted",
    "C140_contains",
    "C140_contains_char",
    "C140_free_array",
    "C140_free_null",
    "C140_make_array",
    "C140_no_leak",
    "C140_double_free_ub"
   ],
   "note": "SafeStringLength converts the length to int: for a string of 2^31 bytes or more it is not the length (C140_length_refuted); everything else holds fully. The int counter of String2StringArray is unbounded in the model."
  },
  {
   "property": "C141",
   "status": "partial",
   "theorems": [
    "C141_write_len",
    "C141_write",
    "C141_write_char",
    "C141_write_f_partial",
    "C141_write_f_refuted",
    "C141_save_partial",
    "C141_cannot_open",
    "C141_save_and_read_partial",
    "C141_save_failure_unnoticed_refuted",
    "C141_full_disk_refuted"
   ],
   "note": "False as stated when a formatted write fails: WriterWriteF then returns the greatest size_t (C141_write_f_refuted), which WriteLenPrefixedString takes for success, so SeqStringWriteFile returns true whatever was lost (C141_save_failure_unnoticed_refuted, C141_full_disk_refuted). Proved for streams that do not fail, and for the unformatted calls on all streams."
  },
  {
   "property": "C142",
   "status": "proved",
   "theorems": [
    "C142_exclusion",
    "C142_returns",
    "C142_ends",
    "C142_failure",
    "C142_available",
    "C142_not_early",
    "C142_in_time",
    "C142_early_refuted"
   ],
   "note": "Proved as stated for one mutex and one condition. If the clock is set forward a wait times out early, as CLOCK_REALTIME is used (C142_early_refuted). A mutex that is not of the error-checking type need not notice a wrong unlock or wait: then the behaviour is undefined (C142_ends)."
  },
  {
   "property": "C143",
   "status": "proved",
   "theorems": [
    "C143_statistics",
    "C143_average_of_nothing_refuted"
   ],
   "note": "Proved as stated. The average it also prints is 0 divided by 0 for a table from which everything was removed (C143_average_of_nothing_refuted). The layout of the lines is not modelled."
  }
 ]
}