{
 "claims": [
  {
   "property": "C01",
   "status": "proved",
   "theorems": [
    "base64_decode_encode",
    "base64_encode_rfc4648",
    "base64_encode_limit",
    "base64_decode_buffer_exact"
   ],
   "note": "Longer inputs overflow the int32 length computation (base64_encode_limit)."
  },
  {
   "property": "C02",
   "status": "partial",
   "theorems": [
    "base64_decode_domain_partial",
    "base64_decode_bits_partial",
    "base64_canonical_partial",
    "base64_canonical_refuted"
   ],
   "note": "The full statement is false: 'QR==' decodes to 'A' whose encoding is 'QQ==' (base64_canonical_refuted). Proved: the exact accepted set, the decoded value, and re-encoding for texts with zero unused bits."
  },
  {
   "property": "C03",
   "status": "proved",
   "theorems": [
    "hex_decode_encode",
    "hex_decode_domain",
    "hex_decode_rejects",
    "hex_decode_case_insensitive",
    "hex_encode_decode"
   ],
   "note": ""
  },
  {
   "property": "C04",
   "status": "proved",
   "theorems": [
    "url_decode_encode",
    "url_encode_total",
    "url_encode_alphabet",
    "url_encode_keeps_unreserved",
    "url_decode_total",
    "url_decode_identity"
   ],
   "note": ""
  },
  {
   "property": "C05",
   "status": "proved",
   "theorems": [
    "encode_meaning",
    "signed_roundtrip",
    "unsigned_roundtrip",
    "decode_meaning",
    "roundtrip_128",
    "roundtrip_256",
    "float_roundtrip",
    "decode_short_refuted",
    "decode_i64_be_iso_domain"
   ],
   "note": "Round trips hold for all values. Outside the property: no decoder checks the array length (decode_short_refuted), and decode_i64_be shifts a signed value, which strict ISO C leaves undefined for negative results (decode_i64_be_iso_domain)."
  },
  {
   "property": "C06",
   "status": "proved",
   "theorems": [
    "v4_text",
    "v7_text",
    "v7_ordered",
    "is_valid_exact",
    "parse_exact",
    "parse_laws",
    "compact_form",
    "generated_parse",
    "generate_failure"
   ],
   "note": "For every random byte sequence and clock value below 2^48 ms. A failing random source yields the empty text (generate_failure)."
  },
  {
   "property": "C07",
   "status": "partial",
   "theorems": [
    "u128_arith",
    "i128_arith_partial",
    "i128_compare",
    "i128_arith_refuted"
   ],
   "note": "u128 is exact. i128 +,-,neg are exact under a wrapping compiler and whenever ISO C defines them, but the project is built without -fwrapv: representable sums can overflow the signed high word (i128_arith_refuted)."
  },
  {
   "property": "C08",
   "status": "partial",
   "theorems": [
    "u128_checked",
    "i128_checked_partial",
    "i128_checked_iso_partial",
    "i128_checked_refuted",
    "w256_checked_partial",
    "w256_checked_refuted"
   ],
   "note": "False for i128: overflow of checked add is UB as compiled, MIN*-1 is returned as MIN, division by zero yields 0 (i128_checked_refuted); the 256-bit versions inherit the borrow bug of C09. Everything else is exact-or-panic."
  },
  {
   "property": "C09",
   "status": "partial",
   "theorems": [
    "u256_arith_partial",
    "i256_arith_partial",
    "i256_sub_refuted"
   ],
   "note": "Add, mul, neg, comparisons exact for all operands. Subtraction is right exactly when no borrow enters an all-ones middle word (iff); 0 - (-1) is wrong (i256_sub_refuted)."
  },
  {
   "property": "C10",
   "status": "partial",
   "theorems": [
    "u128_division",
    "i128_division_partial",
    "u256_division_partial",
    "i256_division_partial",
    "i256_division_small",
    "u256_division_refuted"
   ],
   "note": "128-bit unsigned division is right for every non-zero divisor. 256-bit division is wrong for some divisors with an all-ones middle word (u256_division_refuted), right for all others."
  },
  {
   "property": "C11",
   "status": "partial",
   "theorems": [
    "big_decimal_text",
    "i128_decimal_text_partial",
    "dec_is_canonical",
    "big_from_decimal",
    "i128_decimal_text_refuted"
   ],
   "note": "Holds for u128, u256, i256 and all i128 but the minimum, whose printing and parsing negate it (undefined as compiled)."
  },
  {
   "property": "C12",
   "status": "proved",
   "theorems": [
    "int64_arith_exact_or_panic",
    "neg_exact_or_panic",
    "incdec_exact_or_panic",
    "division"
   ],
   "note": "All operators over all pairs of operands; the emission choice of the code generator is part of the model (constant declarations at file scope, which are emitted unchecked, are not)."
  },
  {
   "property": "C13",
   "status": "partial",
   "theorems": [
    "sized_arith_exact_or_panic_partial",
    "sized_arith_refuted",
    "arith_never_wrong_partial",
    "mixed_arith_refuted",
    "cast_exact_or_panic_partial",
    "cast_refuted"
   ],
   "note": "False in three places, each with a witness: u32*u32 of 2^63 or more is undefined behaviour; operators mixing 64-bit unsigned with signed or small operands give wrong results; casting a uint of 2^63 or more to a small type skips the check. Exact-or-panic proved everywhere else. Wide (128/256-bit) casts: big_casts."
  },
  {
   "property": "C14",
   "status": "proved",
   "theorems": [
    "map_refines_dictionary",
    "bytes_keys_good",
    "f64_keys_good",
    "f32_keys_good",
    "f64_key_equality"
   ],
   "note": "For any hash and key equality that agree (shown for the byte, string and float key kinds), any history of up to 2^27 operations; beyond that the int32 load computation overflows."
  },
  {
   "property": "C15",
   "status": "proved",
   "theorems": [
    "map_never_overfills",
    "map_refines_dictionary",
    "map_never_used_slot_refuted"
   ],
   "note": "A slot that was never used need not exist (map_never_used_slot_refuted), but that is not needed for termination."
  },
  {
   "property": "C16",
   "status": "partial",
   "theorems": [
    "map_iteration_guard_partial",
    "map_iteration_guard_refuted"
   ],
   "note": "Holds for loops over plain variables that end normally or by break; false after a return out of the loop, for loops over a struct field or call result, and for clear (map_iteration_guard_refuted)."
  },
  {
   "property": "C17",
   "status": "partial",
   "theorems": [
    "maps_merge",
    "maps_keys_values",
    "maps_is_equal",
    "maps_contains_value_partial",
    "maps_contains_value_refuted",
    "maps_is_empty"
   ],
   "note": "All hold except contains_value on string values, which compares addresses (maps_contains_value_refuted)."
  },
  {
   "property": "C18",
   "status": "partial",
   "theorems": [
    "arrays_refine_lists",
    "array_index_checked",
    "array_index_refuted"
   ],
   "note": "Full refinement for any number of variables and histories with 32-bit indices and arrays below 2^29 bytes; an int64 index is truncated to int32 first (array_index_refuted)."
  },
  {
   "property": "C19",
   "status": "proved",
   "theorems": [
    "array_copies_independent",
    "arrays_refine_lists"
   ],
   "note": "Any history before and after the copy; same bounds as C18."
  },
  {
   "property": "C20",
   "status": "partial",
   "theorems": [
    "arrays_queries",
    "arrays_transformations",
    "first_occurrences_meaning",
    "arrays_flatten_partial",
    "arrays_flatten_refuted",
    "arrays_dedup_strings_refuted",
    "arrays_sum_partial",
    "arrays_sum_refuted",
    "arrays_min_max",
    "arrays_higher_order"
   ],
   "note": "All list laws hold at every reachable state; flatten is wrong for elements that are not 8 bytes, deduplicate compares string addresses, get_sum is unchecked."
  },
  {
   "property": "C21",
   "status": "partial",
   "theorems": [
    "sort_ints",
    "sort_texts",
    "sort_floats_partial",
    "sort_nan_refuted",
    "sort_uint_refuted",
    "sort_f64_refuted",
    "sort_small_refuted"
   ],
   "note": "For any qsort meeting the ISO C contract (insertion sort shown to be one). False for NaNs, uint values from 2^63, f64/f32 arrays and elements under 8 bytes."
  },
  {
   "property": "C22",
   "status": "partial",
   "theorems": [
    "shuffle_permutes",
    "sample_positions",
    "random_in_range_partial",
    "random_max_partial",
    "random_returns",
    "random_range_refuted",
    "random_bytes_chars"
   ],
   "note": "Shuffle and sample hold for all outcomes; integer ranges hold whenever the call returns, but a multiple of 2^32 divides by zero (refuted)."
  },
  {
   "property": "C23",
   "status": "proved",
   "theorems": [
    "split_then_join",
    "split_cuts",
    "join_then_split",
    "join_then_split_refuted",
    "join_glues_partial",
    "join_refuted"
   ],
   "note": "All strings and separators. Beyond the claim: the converse for separators that cannot overlap themselves; joining pieces whose total exceeds 2^31-1 overflows the int32 length (join_refuted)."
  },
  {
   "property": "C24",
   "status": "proved",
   "theorems": [
    "contains_iff",
    "index_of_first",
    "last_index_of_last",
    "count_largest",
    "count_empty",
    "starts_with_iff",
    "ends_with_iff",
    "remove_prefix_removes",
    "remove_suffix_removes"
   ],
   "note": "count is the maximum number of non-overlapping occurrences; also remove_prefix/remove_suffix."
  },
  {
   "property": "C25",
   "status": "proved",
   "theorems": [
    "replace_all",
    "replace_is_split_join",
    "replace_outcomes",
    "replace_nothing"
   ],
   "note": "Every s up to the maximum string length; otherwise P0071; the buffer is never overrun."
  },
  {
   "property": "C26",
   "status": "partial",
   "theorems": [
    "trim_both",
    "trim_one_side",
    "slice_positions",
    "reverse_reverses",
    "repeat_copies_partial",
    "repeat_refuted",
    "padding_partial",
    "padding_refuted"
   ],
   "note": "trim, slice, reverse hold without restriction; repeat overflows int64 for len*count >= 2^63, padding truncates widths above 2^31-1."
  },
  {
   "property": "C27",
   "status": "partial",
   "theorems": [
    "to_int_reads_partial",
    "to_int_reads_refuted",
    "to_int_bad_base",
    "to_uint_reads_partial",
    "int_text_roundtrip",
    "fmt_base_roundtrip",
    "fmt_binary_roundtrip_refuted",
    "is_integer_iff",
    "is_numeric_iff",
    "to_bool_iff",
    "cast_int_reads",
    "cast_int_number_partial",
    "cast_int_refuted"
   ],
   "note": "Exact for texts of at most 63 bytes without NUL, in every base; longer texts are cut and read as another number. The cast int(text) clamps and ignores text after a blank."
  },
  {
   "property": "C28",
   "status": "proved",
   "theorems": [
    "utf8_encoding",
    "utf8_too_large",
    "utf8_text_access",
    "utf8_roundtrip",
    "to_char_defined",
    "char_count_malformed_refuted"
   ],
   "note": "All code points and all well-formed strings. Beyond the claim: on malformed text char_count and to_char disagree."
  },
  {
   "property": "C29",
   "status": "partial",
   "theorems": [
    "elem_text_shows",
    "array_to_string_partial",
    "map_to_string_partial",
    "array_to_string_in_bounds",
    "map_to_string_in_bounds",
    "elem_text_short",
    "array_to_string_refuted"
   ],
   "note": "Complete output below about 4000 bytes and no overrun when elements are at most 93 bytes; a string element of about 4 kB overruns the stack buffer, long arrays lose elements."
  },
  {
   "property": "C30",
   "status": "partial",
   "theorems": [
    "csv_parse_defined",
    "csv_roundtrip_partial",
    "csv_roundtrip_refuted",
    "csv_stringify_text",
    "csv_stringify_lines_text",
    "csv_reads_partial",
    "simple_is_rfc",
    "csv_reads_refuted",
    "csv_headers_first"
   ],
   "note": "Round trip for fields without comma/line break/leading quote and non-empty last fields; parser correct on RFC 4180 text without quotes inside quoted fields."
  },
  {
   "property": "C31",
   "status": "partial",
   "theorems": [
    "json_valid_partial",
    "json_valid_exact",
    "json_valid_refuted"
   ],
   "note": "Exact for texts without vertical tab and form feed; those two bytes count as blank, so some texts outside RFC 8259 are accepted. UTF-8 validity is not part of the grammar used."
  },
  {
   "property": "C32",
   "status": "partial",
   "theorems": [
    "json_escape_partial",
    "json_encode_string_partial",
    "json_encode_string_refuted"
   ],
   "note": "Proved for every string inside maps, arrays and structs; json.encode of a bare string does not escape at all."
  },
  {
   "property": "C33",
   "status": "partial",
   "theorems": [
    "json_decode_ends_partial",
    "json_decode_in_bounds_partial",
    "json_decode_refuted",
    "json_decode_reads_partial",
    "json_decode_checked",
    "json_decode_encode_partial",
    "json_decode_encode_refuted"
   ],
   "note": "Termination for texts without ']', exact reading of flat escape-free objects; decode loops for ever on an array value, and never unescapes."
  },
  {
   "property": "C34",
   "status": "partial",
   "theorems": [
    "channel_linearizable_partial",
    "channel_fifo_partial",
    "channel_closed_partial",
    "channel_block_refuted"
   ],
   "note": "All schedules, any number of threads, capacities below 2^61; above that the size of the block wraps and the buffer is overrun. A failing malloc is not modelled."
  },
  {
   "property": "C35",
   "status": "partial",
   "theorems": [
    "channel_wakeups_partial",
    "channel_settles_partial",
    "channel_progress_partial"
   ],
   "note": "All schedules including spurious wake-ups, capacities below 2^61 (the property is proved in full for them)."
  },
  {
   "property": "C36",
   "status": "partial",
   "theorems": [
    "thread_join_frees_once",
    "thread_record_not_leaked",
    "thread_detach_partial",
    "thread_detach_refuted",
    "thread_detach_use_after_free_refuted",
    "thread_is_alive_refuted"
   ],
   "note": "Join is safe under every schedule and nothing is leaked; detach frees twice, or reads freed memory, when it overlaps the end of the thread. Sequentially consistent interleavings; malloc failure not modelled."
  },
  {
   "property": "C37",
   "status": "proved",
   "theorems": [
    "server_capped",
    "server_counter",
    "server_refuses",
    "server_refuses_single"
   ],
   "note": "Any number of listen loops below 2^30 and all outcomes of malloc and pthread_create."
  },
  {
   "property": "C38",
   "status": "partial",
   "theorems": [
    "arena_allocations_partial",
    "arena_outcomes_partial",
    "arena_destroyed_unusable_partial",
    "arena_allocations_refuted"
   ],
   "note": "All histories of allocations, scopes, resets, stores and destroy, with requests of at most 2^62 bytes; a request within 7 bytes of 2^64 is rounded to 0 and shares its address with the next. Resetting an arena inside one of its own scopes is excluded."
  },
  {
   "property": "C39",
   "status": "partial",
   "theorems": [
    "arena_destroy_partial",
    "arena_destroy_refuted",
    "arena_destroy_scope_refuted"
   ],
   "note": "Every block is returned when no reset or scope exit took place, and none is ever returned twice (arena_outcomes_partial); after a reset or scope exit the next new block replaces the rest of the chain, which leaks."
  },
  {
   "property": "C40",
   "status": "partial",
   "theorems": [
    "semver_total_order",
    "semver_precedence_partial",
    "semver_precedence_refuted"
   ],
   "note": "The order laws hold for all strings; SemVer precedence for versions whose numbers fit 64 bits and whose words are not '-N' and do not end like git-describe output. Sscanf modelled from Go's documentation, 64-bit int."
  },
  {
   "property": "C41",
   "status": "partial",
   "theorems": [
    "update_picks_latest",
    "update_range",
    "update_offer",
    "update_offered",
    "update_note",
    "version_info_parts",
    "update_dev_build_refuted"
   ],
   "note": "All release lists and version strings; development builds past a stable tag count as older than the tag and are offered it. Network and cache files are not modelled."
  },
  {
   "property": "C42",
   "status": "partial",
   "theorems": [
    "trusted_origin",
    "trusted_url_partial",
    "trusted_url_refuted",
    "trusted_accepts"
   ],
   "note": "Scheme and host are right for every accepted URL; the path is in the release area when no piece of it decodes to '..' or contains an encoded slash; otherwise it can leave it. Redirects followed by the HTTP client are not modelled."
  },
  {
   "property": "C43",
   "status": "proved",
   "theorems": [
    "extract_confined",
    "extract_result",
    "extract_succeeds"
   ],
   "note": "All archives, directories and failures, Unix paths; symbolic links inside the fresh temporary directory are not modelled."
  },
  {
   "property": "C44",
   "status": "partial",
   "theorems": [
    "install_crash_partial",
    "install_returns",
    "install_success",
    "install_power_refuted"
   ],
   "note": "Proved for a process killed at any point and any failing calls; after a power failure the unsynced new binary can be lost together with the removed backup."
  },
  {
   "property": "C45",
   "status": "proved",
   "theorems": [
    "format_idempotent",
    "format_content"
   ],
   "note": "For every source text. format_content determines the output from the source: lines tidied, runs of empty lines cut to two, none at the end, one final newline. A line of blanks only is not emptied (its tabs are expanded), as in the code."
  },
  {
   "property": "C46",
   "status": "partial",
   "theorems": [
    "fmt_lines",
    "fmt_twice_partial",
    "fmt_program_partial",
    "fmt_refuted"
   ],
   "note": "Every source: output is the source's lines, in order, each with other indentation only. Idempotence proved unless a quote ends a line and the next line starts with one; tokens (and so raw strings) preserved if quotes only delimit strings, only raw strings span lines and have no blank-only lines. Full statement refuted by concrete sources."
  },
  {
   "property": "C47",
   "status": "partial",
   "theorems": [
    "project_name_partial",
    "project_name_inside",
    "project_name_refuted"
   ],
   "note": "The accepted names characterised exactly, and every accepted name denotes an entry of the current directory. The last clause of the property is false: names such as -rf, 1abc and .git are accepted (project_name_refuted)."
  },
  {
   "property": "C48",
   "status": "partial",
   "theorems": [
    "docs_partial",
    "docs_refuted"
   ],
   "note": "Complete, ordered and exact for files made of plain lines and well-formed documented declarations with lines under 64 KiB. False in general: brace on the next line, empty description, a line of 64 KiB, a brace in a comment (docs_refuted)."
  },
  {
   "property": "C49",
   "status": "partial",
   "theorems": [
    "last_change_partial",
    "last_change_reached",
    "burst_once_partial",
    "watch_blocked_refuted",
    "burst_refuted"
   ],
   "note": "Timed machine of the event loop, every schedule. Proved for states where the loop has drained; false while the first run of the program is still going on, and a burst can start two rebuilds when the second event is received after the timer fired."
  },
  {
   "property": "C50",
   "status": "partial",
   "theorems": [
    "entry_file_partial",
    "entry_file_refuted"
   ],
   "note": "Exact for every tree whose files have lines under 64 KiB; a longer line before the main function hides it (entry_file_refuted)."
  },
  {
   "property": "C51",
   "status": "proved",
   "theorems": [
    "url_safe",
    "request_lines"
   ],
   "note": "For every URL: refused, or host and path as stated, and without custom headers the bytes sent are exactly one request line, the fixed headers and the body. Custom headers: C91."
  },
  {
   "property": "C52",
   "status": "partial",
   "theorems": [
    "response_partial",
    "response_refuted",
    "receive_whole",
    "receive_refuted"
   ],
   "note": "Status, body and every header but the last, for every well-formed response; the last header is always lost (response_refuted). A stream below 1 MiB is received whole however it is cut; a longer one can make the client write past its buffer."
  },
  {
   "property": "C53",
   "status": "partial",
   "theorems": [
    "server_route_match",
    "server_dispatch_partial",
    "server_dispatch_refuted"
   ],
   "note": "Matching is exact and the first matching route is called with the right values for its own parameters; names bound by earlier routes that did not match stay in the map."
  },
  {
   "property": "C54",
   "status": "partial",
   "theorems": [
    "server_query_partial",
    "server_query_total",
    "server_query_refuted"
   ],
   "note": "Exact when every piece but the last contains '='; a piece without '=' swallows the next key. No percent-decoding takes place."
  },
  {
   "property": "C55",
   "status": "partial",
   "theorems": [
    "normalize_partial",
    "normalize_complete_partial",
    "normalize_refuted"
   ],
   "note": "Proved for every path without NUL bytes and with at most 256 non-empty components, including that the normal form is the same exactly for paths that denote the same location from everywhere. Beyond 256 components names are lost silently, and 257 leading .. overflow the stack array (normalize_refuted)."
  },
  {
   "property": "C56",
   "status": "proved",
   "theorems": [
    "parts_of_join",
    "split_denotes",
    "extension_exact",
    "extension_suffix",
    "separators_bound"
   ],
   "note": "For every path without NUL bytes (extension and separators: for every path)."
  },
  {
   "property": "C57",
   "status": "proved",
   "theorems": [
    "keyword_exact",
    "identifier_exact"
   ],
   "note": "For every byte string, including that the binary search ends inside the table."
  },
  {
   "property": "C58",
   "status": "proved",
   "theorems": [
    "lex_covers",
    "lex_ordered",
    "relex"
   ],
   "note": "For every source without NUL bytes (a C string; 64-bit lengths below 2^31). After a lexical error positions and coverage hold too, except that an unclosed comment is reported at the end of the source."
  },
  {
   "property": "C59",
   "status": "proved",
   "theorems": [
    "int_literal_exact",
    "int_token_literal"
   ],
   "note": "Every INT token of every error-free source; value, both overflow flags and the emitted decimal text."
  },
  {
   "property": "C60",
   "status": "partial",
   "theorems": [
    "parse_terminates",
    "expressions_parsed",
    "grammar_unambiguous",
    "two_operators",
    "written_parsed",
    "parsed_expressions_partial",
    "arguments_present_refuted",
    "map_brace_refuted",
    "array_closed_refuted",
    "capital_before_block_refuted",
    "literal_in_call_refuted",
    "member_name_refuted"
   ],
   "note": "Proved for all token lists: the parser always stops; every expression of a grammar stratified by the operator table (operators, postfix forms, calls with named arguments, member and index, arrays, maps, struct literals, casts, new, range, function references), nested at most 256 deep, is parsed to its tree with no error and leaves the following tokens; that grammar is unambiguous; two operators in a row group by the table, left to right when equal; any tree of operators written with parentheses is parsed back to itself. Conversely, brace-free input accepted without error and without holes derives its tree in the grammar (partial: inputs with braces, where the refutations show wrong acceptance). Refuted: f(()5) has a hole, {a: 1,} } takes two closing braces, an array needs no closing brace, a capital name before a block becomes a struct literal, struct literals are refused in parentheses right of a comparison, any token is a member name."
  },
  {
   "property": "C61",
   "status": "partial",
   "theorems": [
    "string_partial",
    "raw_partial",
    "format_partial",
    "string_token_items",
    "char_exact",
    "char_escape_exact",
    "string_refuted"
   ],
   "note": "Proved for every literal outside the listed cases. Refuted: \\0 before an octal digit, trigraphs (cc runs with -std=c11), an escaped backslash before $, zero bytes together with other \\xNN (wrong length), \\0 or \\x00 inside raw text; in interpolated strings also \\xNN before a hexadecimal digit, zero bytes and \\x25. Floating-point literals are not modelled."
  },
  {
   "property": "C62",
   "status": "proved",
   "theorems": [
    "lookup_exact",
    "define_takes_effect",
    "leaving_restores"
   ],
   "note": "Every history of up to 2^29 scope operations (table capacities are C ints). Redefining a name in the same block keeps the symbol's other attributes, as the model and specification say."
  },
  {
   "property": "C63",
   "status": "partial",
   "theorems": [
    "requests_answered",
    "interned",
    "descriptor_parts",
    "same_request_partial",
    "same_request_refuted",
    "equality_is_equivalence",
    "structure_told_apart_partial",
    "structure_told_apart_refuted"
   ],
   "note": "Addresses are equal exactly when kind and name are, for every history; equality is a decided equivalence. Refuted: a name asked for before its enum is created changes descriptor; all maps, all integer widths of one signedness, and arrays whose element texts differ only after a comma are equated. Proved exact for basic types, structs, pointers, functions and comma-free arrays."
  },
  {
   "property": "C64",
   "status": "partial",
   "theorems": [
    "signature_recovered_partial",
    "texts_identify_types",
    "signature_recovered_refuted"
   ],
   "note": "Every nested function type the parser accepts whose single return types are shorter than 256 bytes; longer ones are silently cut (refuted)."
  },
  {
   "property": "C65",
   "status": "partial",
   "theorems": [
    "import_target_partial",
    "import_target_refuted",
    "import_set_exact_partial",
    "import_set_exact_refuted",
    "imports_end",
    "long_import_refuted",
    "no_file_twice_partial",
    "no_file_twice_refuted",
    "all_imports_read_partial",
    "all_imports_read_refuted"
   ],
   "note": "For every file system, cycles included, the import loop ends. Up to 256 paths the set is exact, no file is read twice and every import is read. Refuted beyond: the 257th path is forgotten, the 257th import statement is dropped silently, and an import with 256 or more bytes between slashes overruns a buffer."
  },
  {
   "property": "C66",
   "status": "proved",
   "theorems": [
    "diagnostics_printed",
    "shown_one",
    "twenty_errors",
    "quiet_exact"
   ],
   "note": "Every sequence of up to 2^29 diagnostics, every -q setting, colours on or off. Formatting of the messages themselves and the error-code table are not modelled."
  },
  {
   "property": "C67",
   "status": "partial",
   "theorems": [
    "not_reserved_partial",
    "not_reserved_refuted",
    "others_left_alone",
    "still_different_partial",
    "still_different_refuted",
    "declarations_distinct_partial",
    "declarations_distinct_refuted",
    "imports_distinct_partial",
    "imports_distinct_refuted",
    "instances_partial",
    "instances_refuted",
    "multi_struct_partial",
    "multi_struct_refuted"
   ],
   "note": "Proved for names without leading underscore, enums and modules without underscore, instances for plain type names, names that fit the 256-byte buffers. Refuted: _Bool and the other underscore keywords are emitted as they are; long and _gray_long share a C name; enum A constant B_C and enum A_B constant C; net.v4_open and net_v4.open; instances for [^int] and ^[int]; a generic function with a 254-byte name overruns a buffer; functions with __ in their name and several results use an undeclared struct."
  },
  {
   "property": "C68",
   "status": "proved",
   "theorems": [
    "sha256_exact",
    "md5_exact",
    "sha256_digits",
    "md5_digits",
    "messages_padded"
   ],
   "note": "All byte strings of fewer than 2^31 bytes. The standards' constants are specified by the roots of primes and the sines they come from."
  },
  {
   "property": "C69",
   "status": "partial",
   "theorems": [
    "replace_all_partial",
    "replace_inside_partial",
    "replace_stops",
    "replace_invalid",
    "one_list_of_matches",
    "replace_inside_refuted",
    "replace_all_refuted",
    "replace_start_refuted",
    "replace_end_refuted"
   ],
   "note": "Every match is rewritten for patterns without ^ (and without $, or never matching the empty string), texts up to 8191 bytes, results below 12288 bytes. Refuted: longer results overflow the buffer or leave matches, ^ matches again after every match, $ is replaced twice."
  },
  {
   "property": "C70",
   "status": "partial",
   "theorems": [
    "bytes_text_roundtrip",
    "bytes_hex_roundtrip",
    "bytes_from_hex_partial",
    "bytes_base64_roundtrip",
    "bytes_from_hex_refuted"
   ],
   "note": "Round trips hold; rejection of malformed hex is false: from_hex uses an unchecked sscanf (bytes_from_hex_refuted)."
  },
  {
   "property": "C71",
   "status": "partial",
   "theorems": [
    "shift_amount_checked",
    "shift_right_floor",
    "shift_left_partial",
    "shift_left_refuted"
   ],
   "note": "Amount check and right shift hold (small types for amounts below 32); left shift loses bits or is undefined: shift_left_refuted."
  },
  {
   "property": "C72",
   "status": "partial",
   "theorems": [
    "range_loop_partial",
    "range_zero_step_panics",
    "range_minus_refuted",
    "range_overflow_refuted",
    "range_membership_partial",
    "range_membership_refuted"
   ],
   "note": "Holds for every range whose step is not written with a prefix minus over a non-positive value; a last addition that overflows panics; membership is right for positive steps only."
  },
  {
   "property": "C73",
   "status": "partial",
   "theorems": [
    "call_depth",
    "call_depth_threads_refuted"
   ],
   "note": "Exact for one thread; the counter is a single global, so threads add up (refuted)."
  },
  {
   "property": "C74",
   "status": "partial",
   "theorems": [
    "comparison_exact_partial",
    "comparison_refuted"
   ],
   "note": "Exact for all type pairs except signed with u64/uint and i8..i32 with u32."
  },
  {
   "property": "C75",
   "status": "partial",
   "theorems": [
    "element_width_partial",
    "element_width_refuted",
    "element_assign_refuted",
    "element_stride_refuted"
   ],
   "note": "Holds for the types whose access sizes agree; false for i8-i32, u8-u32 and f32."
  },
  {
   "property": "C76",
   "status": "partial",
   "theorems": [
    "array_iteration_guard_partial",
    "array_iteration_guard_refuted"
   ],
   "note": "Holds for loops over plain variables that end normally; false after reassignment in the loop, for loops over fields or call results, and after return."
  },
  {
   "property": "C77",
   "status": "partial",
   "theorems": [
    "case_conversion",
    "case_keeps_others",
    "chars_roundtrip",
    "chars_back_partial",
    "chars_back_refuted",
    "char_at_position",
    "char_at_to_chars_partial",
    "char_at_to_chars_refuted",
    "classify_partial",
    "classify_refuted"
   ],
   "note": "Holds for ASCII characters; from_chars, is_* and 'in' use only the low byte, char_at is negative for bytes from 128 where char is signed."
  },
  {
   "property": "C78",
   "status": "partial",
   "theorems": [
    "input_line_partial",
    "input_reads_lines_partial",
    "input_reads_lines_refuted",
    "input_at_end"
   ],
   "note": "Lines up to 4095 bytes without NUL."
  },
  {
   "property": "C79",
   "status": "partial",
   "theorems": [
    "json_encode_array_text",
    "json_encode_map_text",
    "json_encode_map_size",
    "json_encode_array_partial",
    "json_encode_map_partial",
    "json_encode_float_refuted",
    "json_pretty_text",
    "json_pretty_size_refuted",
    "json_pretty_valid"
   ],
   "note": "Strings, bools and 64-bit integers; infinities and NaN are printed as inf/nan, which is not JSON. The text printed for a float is a parameter. Outputs up to INT32_MAX bytes."
  },
  {
   "property": "C80",
   "status": "partial",
   "theorems": [
    "json_stringify_text",
    "json_struct_roundtrip_partial",
    "json_struct_fields_partial",
    "json_struct_refuted"
   ],
   "note": "int, bool and escape-free string fields; float fields not modelled; fields of other types are written without a value."
  },
  {
   "property": "C81",
   "status": "proved",
   "theorems": [
    "json_split_elements"
   ],
   "note": "Every element with the blanks after it, for all JSON arrays."
  },
  {
   "property": "C82",
   "status": "partial",
   "theorems": [
    "channel_locked_partial",
    "channel_race_refuted"
   ],
   "note": "All accesses but the early check of closed in send and try_send hold the lock; that check races with close."
  },
  {
   "property": "C83",
   "status": "partial",
   "theorems": [
    "thread_count_partial",
    "thread_count_refuted",
    "thread_dead_means_returned"
   ],
   "note": "Exact while every pthread_create succeeds; its result is not checked, so a failure is counted for ever."
  },
  {
   "property": "C84",
   "status": "proved",
   "theorems": [
    "atomic_linearizable",
    "atomic_no_lost_updates",
    "atomic_finishes_alone"
   ],
   "note": "Both architectures, 64- and 32-bit routines, under sequentially consistent memory; the fences are no-ops in the model, weak memory and the 8-bit routines are not modelled."
  },
  {
   "property": "C85",
   "status": "partial",
   "theorems": [
    "spin_mutual_exclusion",
    "spin_linearizable_partial",
    "spin_trylock_refuted"
   ],
   "note": "Mutual exclusion holds on both architectures; on ARM try_lock can fail on a free lock (spurious store-exclusive failure)."
  },
  {
   "property": "C86",
   "status": "partial",
   "theorems": [
    "server_request_partial",
    "server_request_refuted"
   ],
   "note": "For requests delivered whole by one recv of at most 65535 bytes; a request arriving in pieces is cut (Content-Length is not consulted). Middleware calls are not modelled."
  },
  {
   "property": "C87",
   "status": "partial",
   "theorems": [
    "server_response_partial",
    "server_redirect_partial",
    "server_message_unique",
    "server_cors_one_line",
    "server_response_refuted",
    "server_injection_refuted"
   ],
   "note": "Content type plus body up to 64000 bytes, no NUL, one-line content type; longer bodies are cut and a line break in the content type injects headers."
  },
  {
   "property": "C88",
   "status": "partial",
   "theorems": [
    "arena_usage_partial",
    "mem_arena_limit"
   ],
   "note": "For requests of at most 2^62 bytes."
  },
  {
   "property": "C89",
   "status": "proved",
   "theorems": [
    "install_version_syntax",
    "install_exact"
   ],
   "note": "All arguments and release lists, up to the call of the downloader."
  },
  {
   "property": "C90",
   "status": "partial",
   "theorems": [
    "runtime_file_partial",
    "runtime_file_completed",
    "runtime_file_refuted"
   ],
   "note": "Proved when no two processes extract at the same time; two processes share the temporary file, and the size check accepts a damaged file for ever."
  },
  {
   "property": "C91",
   "status": "partial",
   "theorems": [
    "request_exact_partial",
    "host_cut_refuted",
    "header_injection_refuted",
    "header_overflow_refuted",
    "header_unterminated_refuted"
   ],
   "note": "Exact when host, path and header block fit their buffers (255, 2047, 4095 bytes). False beyond: a longer host is cut and another host contacted, headers past 4096 bytes write out of bounds, a header block of 4094 or 4095 bytes is sent without its blank line, and a line break in a custom header adds a header line."
  },
  {
   "property": "C92",
   "status": "partial",
   "theorems": [
    "join_denotes_partial",
    "is_absolute_partial",
    "join_empty_refuted",
    "is_absolute_refuted"
   ],
   "note": "True when the first part is not empty, and for paths that do not start with a backslash. False otherwise: joining an empty first part gives an absolute path, and a leading backslash is a root for path_join and path_normalize but not for is_absolute."
  },
  {
   "property": "C93",
   "status": "partial",
   "theorems": [
    "words_partial",
    "words_refuted"
   ],
   "note": "True after identifiers, keywords, operators and quoted literals. False after numbers (0b12 is 0b1 followed by 2), after !in (x !in_list) and after attributes (#document is #doc followed by ument)."
  },
  {
   "property": "C94",
   "status": "partial",
   "theorems": [
    "fmt_indent_partial",
    "fmt_indent_refuted"
   ],
   "note": "Proved for every line on which a token starts first, in error-free sources that are tidy or have no backquote. Comment-only lines get the depth of the line before: refuted."
  },
  {
   "property": "C95",
   "status": "partial",
   "theorems": [
    "wide_partial",
    "wide_negated_partial",
    "wide_refuted"
   ],
   "note": "Decimal literals and literals below 2^63. Refuted for hexadecimal, octal and binary literals from 2^63 on (digits read as decimal), for a variable initialised with a multiple of 2^64 (it becomes 0) and for constants at file level beyond 64 bits (not valid C)."
  },
  {
   "property": "C96",
   "status": "proved",
   "theorems": [
    "line_shown",
    "diagnostics_printed"
   ],
   "note": "Lines are shown up to their 2047th byte, as the specification says. The disk is assumed not to change during the run."
  },
  {
   "property": "C97",
   "status": "partial",
   "theorems": [
    "types_renamed_partial",
    "types_renamed_refuted"
   ],
   "note": "Every type without function types whose renamed text has fewer than 256 bytes. Refuted: names inside function types keep their old name, longer texts are cut."
  },
  {
   "property": "C98",
   "status": "partial",
   "theorems": [
    "random_hex_exact_partial",
    "random_hex_negative",
    "random_hex_unreadable",
    "random_hex_length_refuted"
   ],
   "note": "Lengths below 2^31; from there on the length field of the string is cut to 32 bits."
  },
  {
   "property": "C99",
   "status": "partial",
   "theorems": [
    "match_exact_partial",
    "find_exact_partial",
    "find_all_exact_partial",
    "split_exact_partial",
    "split_find_all_partial",
    "searches_stop",
    "invalid_pattern",
    "valid_pattern",
    "match_long_refuted",
    "find_all_inside_refuted",
    "split_empty_refuted",
    "find_all_anchors_refuted"
   ],
   "note": "Texts up to 8191 bytes without NUL. Refuted: later occurrences are not seen, find_all with empty matches reads behind its buffer for longer texts, split loses the characters next to empty matches, ^ and $ in find_all."
  },
  {
   "property": "C100",
   "status": "partial",
   "theorems": [
    "function_with_results_returns_partial",
    "function_with_results_returns_refuted",
    "named_result_returns_refuted"
   ],
   "note": "Functions without named results and without a break out of a loop statement. `loop { if x {break} return 1 }` and a function with named results and no return are accepted and can end without a value."
  },
  {
   "property": "C101",
   "status": "proved",
   "theorems": [
    "compiled_runs_source",
    "too_deep_runs_nothing"
   ],
   "note": "Expressions, declarations and loop headers are opaque pieces; their C is not modelled here."
  },
  {
   "property": "C102",
   "status": "partial",
   "theorems": [
    "ensures_run_on_return",
    "ensures_run_at_end",
    "ensures_run_partial",
    "ensures_run_late",
    "ensures_run_refuted"
   ],
   "note": "Exactly once and last first is proved for every exit. `ensure close(f)  return read(f)` closes before it reads: the returned values are computed after the ensures."
  },
  {
   "property": "C103",
   "status": "proved",
   "theorems": [
    "call_gives_back"
   ],
   "note": "A call that stops the program (panic, call depth) does not give anything back."
  },
  {
   "property": "C104",
   "status": "partial",
   "theorems": [
    "returned_memory_exists_partial",
    "returned_memory_exists_refuted",
    "shared_result_refuted"
   ],
   "note": "A function with a mutable reference parameter that returns from inside an if or a loop returns memory of a destroyed arena; so does one whose result type is not copied (enums with payloads)."
  },
  {
   "property": "C105",
   "status": "partial",
   "theorems": [
    "guards_released_partial",
    "guards_released_refuted"
   ],
   "note": "A return from inside a for_each over a variable leaves it guarded for good: the next change of it panics."
  },
  {
   "property": "C106",
   "status": "partial",
   "theorems": [
    "value_deep_copy_partial",
    "copy_is_deep_partial",
    "copy_is_deep_refuted",
    "sized_arrays_copied_refuted",
    "carried_values_copied_refuted"
   ],
   "note": "Every copyable type: structs nested up to 64 deep without recursion, arrays, maps, strings, type texts below 255 bytes. Refuted: a struct that contains an array of itself, sized arrays inside arrays, enums that carry values (also Error) share memory with the original."
  },
  {
   "property": "C107",
   "status": "partial",
   "theorems": [
    "escaped_values_alive_partial",
    "assignment_stores",
    "array_variable_alive_refuted",
    "map_variable_alive_refuted",
    "element_alive_refuted",
    "string_field_alive_refuted",
    "pointed_string_alive_refuted",
    "appended_by_function_alive_refuted",
    "assigned_by_function_alive_refuted"
   ],
   "note": "Every run of every function whose assignments to variables of enclosing blocks are: strings and structs to variables, structs to fields, anything as map entry or new array element, strings and arrays through a pointer to a field. Refuted for arrays and maps assigned to variables, strings assigned to elements, fields and through pointers, functions with a & parameter called in a block, and assignments through a pointer in a function without results. Map and array growth is to the outer arena."
  },
  {
   "property": "C108",
   "status": "partial",
   "theorems": [
    "factorial_exact_partial",
    "factorial_negative",
    "factorial_exact_refuted",
    "gcd_exact_partial",
    "gcd_exact_refuted",
    "lcm_exact_partial",
    "lcm_negative",
    "lcm_exact_refuted",
    "is_prime_exact_partial",
    "is_prime_overflows",
    "is_prime_exact_refuted",
    "small_functions",
    "abs_neg_partial",
    "abs_neg_refuted"
   ],
   "note": "Exact for factorial up to 20, gcd without the least int, lcm of numbers with the same sign whose multiple fits, is_prime of every composite number and of every prime below 3037000499 squared. Refuted elsewhere: overflow without a panic, a negative lcm, and undefined behaviour for every prime above."
  },
  {
   "property": "C109",
   "status": "partial",
   "theorems": [
    "compound_as_written_direct",
    "compound_as_written_partial",
    "element_division_refuted",
    "unchecked_overflow_refuted",
    "unchecked_wrap_refuted",
    "unchecked_zero_refuted",
    "byte_element_refuted",
    "compound_exact_partial",
    "compound_exact_refuted",
    "mixed_as_written_refuted",
    "compound_division",
    "step_as_written"
   ],
   "note": "Fully proved for variables and struct fields with both sides of one type, and for ++ and --. For pointers, elements and entries only where the written-out form does not panic. Refuted: overflow and zero divisors there, /= and %= on elements, [byte] elements, and mixed types."
  },
  {
   "property": "C110",
   "status": "partial",
   "theorems": [
    "declare_exact_or_panic_partial",
    "stored_exact_partial",
    "assigned_exact_refuted",
    "declared_exact_refuted"
   ],
   "note": "Declarations and arguments of i8 to i32 and u8 to u32 with values up to the largest int are checked. Every other store of a value out of range silently holds another number."
  },
  {
   "property": "C111",
   "status": "partial",
   "theorems": [
    "rejection_sound",
    "rejection_exact_partial",
    "short_cycle_rejected",
    "rejection_exact_refuted"
   ],
   "note": "Sound for every program, complete for programs of at most 33 structs and for cycles through at most 32 other structs; a cycle of 34 is accepted."
  },
  {
   "property": "C112",
   "status": "partial",
   "theorems": [
    "definitions_ordered_partial",
    "accepted_ordered_partial",
    "definitions_ordered_refuted",
    "definitions_missing_refuted"
   ],
   "note": "For up to 256 structs without cycles, and enums whose payloads name only earlier enums. Refuted: an enum with a struct payload precedes the struct; structs after the first 256 are not defined."
  },
  {
   "property": "C113",
   "status": "partial",
   "theorems": [
    "binding_sound_partial",
    "binding_sound_refuted",
    "binding_found_partial",
    "binding_found_refuted",
    "binding_total",
    "result_type",
    "accepted_call_sound_partial",
    "accepted_call_sound_refuted",
    "good_call_accepted_partial",
    "call_check_total"
   ],
   "note": "For arguments of parameters with a wildcard in arrays and maps, map[?:?] the only one with two. Refuted: in a generic call arguments of other parameters are not compared at all, a type parameter after a bound wildcard neither; map[?:[?]] accepts map[int:int]; behind pointers and in fixed-size arrays nothing is inferred."
  },
  {
   "property": "C114",
   "status": "partial",
   "theorems": [
    "instances_recorded",
    "both_find_the_same",
    "call_names_instance",
    "called_is_defined_partial",
    "called_is_defined_refuted",
    "instance_types_partial",
    "instance_types_refuted"
   ],
   "note": "Instances once each and calls naming them hold generally; the definition has that name up to 253 characters and types are replaced exactly up to 127, beyond which both are cut."
  },
  {
   "property": "C115",
   "status": "proved",
   "theorems": [
    "distance_exact",
    "distance_exists",
    "suggestion_nearest",
    "no_suggestion"
   ],
   "note": "SuggestProps.v."
  },
  {
   "property": "C116",
   "status": "partial",
   "theorems": [
    "constant_exact_partial",
    "overflow_real_partial",
    "constants_known_partial",
    "constants_exact_refuted"
   ],
   "note": "Exact for different names and no literal in [2^63, 2^64). Refuted: such a literal counts as negative (18446744073709551615 + 6 is accepted as 5), a constant i128 = 2^64 or u64 = 2^63-1+1 is reported as overflowing, and -2^63 % -1 is a crash of the compiler."
  },
  {
   "property": "C117",
   "status": "partial",
   "theorems": [
    "array_size_exact_partial",
    "array_size_unknown",
    "array_size_refuted"
   ],
   "note": "Exact for sizes below 2^31 and constants of different names. Refuted: 2^32+1 becomes 1, and a constant local to one function gives the size of an array in another function that has its own constant of that name."
  },
  {
   "property": "C118",
   "status": "partial",
   "theorems": [
    "literal_fits",
    "literal_expression_fits_partial",
    "literal_expression_fits_refuted"
   ],
   "note": "Exact for a single literal of any size in a declaration, and for + - * / of literals below 2^63 within 64 bits. Refuted: assigning 18446744073709551615 to a u64 is rejected and to an int accepted, i8 = -18446744073709551615 and u8 = 1000 % 600 are accepted, and 2^63-1 + 1 is undefined behaviour in the compiler."
  },
  {
   "property": "C119",
   "status": "partial",
   "theorems": [
    "grouping_kept_partial",
    "grouping_refuted"
   ],
   "note": "False as stated: (a + b) / c on floats is written as (double)a + b / c, and in range in a constant splits sums (grouping_refuted). Proved for all other expressions."
  },
  {
   "property": "C120",
   "status": "partial",
   "theorems": [
    "operands_evaluated_once_partial",
    "left_to_right_partial",
    "left_to_right_refuted"
   ],
   "note": "False as stated: f() / g() calls g first and f() in range(..) calls f twice (left_to_right_refuted). Proved: without effects in a range test each effect happens exactly as often as it should (operands_evaluated_once_partial), and in the order of the source if no operator other than && and || has effects on both sides (left_to_right_partial)."
  },
  {
   "property": "C121",
   "status": "partial",
   "theorems": [
    "interpolation_parts",
    "interpolation_partial",
    "interpolation_one",
    "interpolation_refuted"
   ],
   "note": "Full for splitting. Of the text: not for text with \\x25 (becomes a directive), \\xNN before a hex digit (not C), zero bytes (cut), two question marks, a backslash pair before a dollar sign; values with a zero byte are cut; a brace in quotes ends the expression; a raw string literal in braces is read for escapes (interpolation_refuted)."
  },
  {
   "property": "C122",
   "status": "partial",
   "theorems": [
    "format_check_exact",
    "format_arguments_partial"
   ],
   "note": "format_check_exact is full. format_arguments_partial leaves out %b (accepted, not a conversion of C11) and text that C reads otherwise (\\x25, \\$, zero bytes, two question marks, \\xNN before a hex digit); witnesses in format_text_refuted."
  },
  {
   "property": "C123",
   "status": "partial",
   "theorems": [
    "format_text_partial",
    "format_sound_accepted",
    "format_text_refuted"
   ],
   "note": "Holds for the directives in [sound] (%d/%i on 64-bit integers, chars and bytes, %u on 64-bit, %f.., %s, %llx ..). Refuted: accepted and undefined in C are %x on int, %d on i32, %u on u8, %hd on int, %ls, %Lf, %c on int, %b, %d on i128, \\x25 in the text; %c writes one byte of a wide character; zero bytes cut."
  },
  {
   "property": "C124",
   "status": "partial",
   "theorems": [
    "files_history_partial",
    "write_file_partial",
    "append_file_partial",
    "write_file_says_true",
    "write_file_result_partial",
    "tests_exact",
    "write_file_true_refuted",
    "write_file_result_refuted",
    "write_file_false_refuted"
   ],
   "note": "Proved for histories without faults, and for one write or append under any faults (one file only, always a first part of the new content). Refuted: write_file returns true when fclose could not write the buffer; the variant with an error value ignores a short fwrite; a write that returns false has already truncated the old content. Paths with NUL are excluded from histories, deletes of links too."
  },
  {
   "property": "C125",
   "status": "partial",
   "theorems": [
    "copy_file_partial",
    "move_file_partial",
    "rename_file_exact",
    "rename_file_safe",
    "copy_onto_itself",
    "copy_file_refuted",
    "move_file_refuted"
   ],
   "note": "Proved when source and destination are different files and reads and closes are complete; system calls may fail anywhere. Refuted: copying a file onto itself (also through a link) empties it and returns true; a move across file systems onto a full disk deletes the source although the close of the copy failed."
  },
  {
   "property": "C126",
   "status": "partial",
   "theorems": [
    "remove_dir_all_partial",
    "remove_dir_all_safe_partial",
    "remove_dir_exact",
    "remove_dir_all_refuted"
   ],
   "note": "Proved for directories without links below, named without dots, and paths shorter than the buffer of 4096 bytes. Refuted with a link: stat follows it, so the contents of the directory it leads to, outside, are deleted."
  },
  {
   "property": "C127",
   "status": "partial",
   "theorems": [
    "walk_partial",
    "list_dir_exact",
    "walk_refuted"
   ],
   "note": "walk: proved without links below the directory. Refuted with them: a link to a directory is entered and its files are listed again. list_dir is exact."
  },
  {
   "property": "C128",
   "status": "partial",
   "theorems": [
    "make_dir_all_partial",
    "make_dir_exact",
    "make_dir_all_refuted"
   ],
   "note": "Proved for paths without dots and backslashes on which there are only directories. Refuted: returns true when a file is at the path (EEXIST)."
  },
  {
   "property": "C129",
   "status": "proved",
   "theorems": [
    "read_lines_exact"
   ],
   "note": "A CR at the end of a last line without LF is removed too."
  },
  {
   "property": "C130",
   "status": "partial",
   "theorems": [
    "temp_noted_partial",
    "temp_cleanup_partial",
    "temp_cleanup_refuted"
   ],
   "note": "Proved up to 256 names and for directories without links. Refuted: the 257th stays."
  },
  {
   "property": "C131",
   "status": "partial",
   "theorems": [
    "value_semantics_partial",
    "write_changes_one_partial",
    "value_semantics_refuted"
   ],
   "note": "Proved for every program whose hand-overs are literals, values without arrays, whole variables or flat array fields given to a variable declared with its type, or assignments to anything but an array element. The full claim is false: `mut b = a` without a type, `rows[0] = b`, `mut r [[int]] = s.rows` and `mut q Person = people[0]` share the elements (value_semantics_refuted)."
  },
  {
   "property": "C132",
   "status": "partial",
   "theorems": [
    "consts_kept_partial",
    "consts_kept_refuted"
   ],
   "note": "Proved for accepted programs of the forms of C131 whose writes are at the depths the checks look at: one step for assignments, the variable itself for ++, & arguments, ref and the arrays functions, any depth for addr. The full claim is false: `g[0][1] = 9`, `g[0][1] += 5`, `c[0]++`, `f(c[0])` with an & parameter, `mut r = ref(c[0])`, `arrays.append(g[0], 3)` and `mut a = c; a[0] = 9` are accepted and change the constant (consts_kept_refuted)."
  },
  {
   "property": "C133",
   "status": "partial",
   "theorems": [
    "exec_exact_partial",
    "exec_prefix",
    "exec_exact_refuted"
   ],
   "note": "Without signals the answer is exact: the outputs and the code, or a failure exactly when an output is over 64 MiB or the code is 127 (exec_exact_partial). With signals no buffer is overrun and what is given is a beginning of what was said (exec_prefix). The full statement is false (exec_exact_refuted): a signal during select makes the call stop reading and report a cut output as a success with code 141, and a command that ran and ended with 127 is reported as a failure. Not modelled: a grandchild that keeps the pipes, failing pipe/fork/read."
  },
  {
   "property": "C134",
   "status": "proved",
   "theorems": [
    "exec_returns"
   ],
   "note": "The bound is read off the command: 10 per action and byte plus 24 steps. Every schedule is within it, a state that has not returned can go on, and every reachable state can be led to a return. The command is a finite list of actions; a command that runs for ever is outside the statement."
  },
  {
   "property": "C135",
   "status": "partial",
   "theorems": [
    "print_exact_partial",
    "print_exact_refuted"
   ],
   "note": "With at most 63 struct types, strings without zero bytes and no cut expression, the text is exact: whole, except that a struct inside a struct of its own type is written Name{...} (print_exact_partial). The full statement is false (print_exact_refuted): nested structs of one type lose their fields, maps six deep produce cut C text, and quotes inside strings are not escaped so different arrays have one text. The texts of floats, characters and addresses are parameters."
  },
  {
   "property": "C136",
   "status": "partial",
   "theorems": [
    "print_compiles_partial",
    "print_compiles_refuted"
   ],
   "note": "Proved for at most 63 struct types, recursive or not, and the guard is left as it was found. False beyond (print_compiles_refuted): the guard holds 64 names; a self-containing type inside 64 others makes the compiler recurse without end, and 65 nested types leave the depth at -1 so that the next print writes before the guard's array."
  },
  {
   "property": "C137",
   "status": "partial",
   "theorems": [
    "args_checked_partial",
    "args_checked_refuted"
   ],
   "note": "Accepted iff lawful is proved in full, and the code of every report is right. Refuted: a call that skips a required parameter and gives a later one by name, connect(port: 3000), is not reported: the slot stays NULL, the count is satisfied, and the checker dereferences it (the proved theorem says these are the only calls that crash)."
  },
  {
   "property": "C138",
   "status": "partial",
   "theorems": [
    "args_passed_partial",
    "args_passed_full",
    "args_passed_refuted"
   ],
   "note": "Proved for every call that gives all parameters, and for calls that leave defaults when no argument uses the name of its own or an earlier parameter and the defaults use only globals or reached parameters. Refuted otherwise: connect(host) with a variable host declares the local host and initialises it with itself (an indeterminate value); f(b, a) with a default left passes b twice; a default that uses a defaulted parameter does not compile or takes the caller's variable of that name; so does a default skipped by a named argument."
  },
  {
   "property": "C139",
   "status": "partial",
   "theorems": [
    "literal_checked",
    "literal_fields_partial",
    "literal_comma",
    "literal_fields_refuted"
   ],
   "note": "Refuted: an empty literal of a struct whose first field has no default while a later one has is emitted as {, .y = 5} and never compiles (literal_comma: for every such struct); an array or map field that is left out stays zero, without the sizes of its elements; a default that names a global takes a local variable of that name at the literal. The partial theorem excludes exactly these."
  },
  {
   "property": "C140",
   "status": "partial",
   "theorems": [
    "new_fields_partial",
    "new_fields_refuted"
   ],
   "note": "Proved when no name of a default is hidden at the call; refuted by a local variable with the name of a global the default uses (the shadowing is only a warning)."
  },
  {
   "property": "C141",
   "status": "partial",
   "theorems": [
    "enum_values_partial",
    "enum_values_refuted"
   ],
   "note": "Proved for enum names without underscore, values that fit a C int, at most 31 flags and strings without escapes or quotes. The refutation shows strings with escapes (wrong length, over-read), name collisions A.B_C / A_B.C, the 32nd flag and numbers dropped in string and tagged enums."
  },
  {
   "property": "C142",
   "status": "partial",
   "theorems": [
    "enum_distinct_partial",
    "enum_tags_distinct",
    "enum_values_refuted"
   ],
   "note": "False in general: A = 1, B = 0, C is accepted and A equals C, and two variants may both be -1 (enum_values_refuted)."
  },
  {
   "property": "C143",
   "status": "partial",
   "theorems": [
    "for_range_partial",
    "for_range_unit",
    "for_range_zero",
    "for_check",
    "for_range_refuted"
   ],
   "note": "Proved when the last value plus the step is an int64 and a minus sign stands before a positive value. The refutation shows a panic after the last value near the int64 limit, range(10, 0, -s) with negative s running upwards, and wrong directions that are no runtime error although STANDARD.md says so."
  },
  {
   "property": "C144",
   "status": "partial",
   "theorems": [
    "in_range_partial",
    "in_range_loop_partial",
    "when_first_partial",
    "range_refuted"
   ],
   "note": "False in general: in ignores the direction of a negative step, a zero step divides by zero, is range(5) emits C without a start, and when does not see a negative step in a variable (range_refuted)."
  },
  {
   "property": "C145",
   "status": "partial",
   "theorems": [
    "strict_partial",
    "strict_refuted",
    "faithful_case"
   ],
   "note": "Proved when every value of a branch is written for the enum of the subject and integer literals are used only where variants are numbered by position. Refuted without that: the check compares variant names only, so Other.RED covers Color.RED; an integer literal covers the variant at that position even if its value differs; the enum to cover is taken from the first branch rather than the subject; a combination of flags has no branch."
  },
  {
   "property": "C146",
   "status": "proved",
   "theorems": [
    "seed_reproducible",
    "unseeded_is_seeded_once",
    "unseeded_first",
    "seed_low_bits"
   ],
   "note": "Integers, bytes, characters, choice, shuffle and sample; floats and calls from several threads are not modelled. seed_low_bits: seeds that differ by 2^32 give the same sequence."
  },
  {
   "property": "C147",
   "status": "partial",
   "theorems": [
    "int_reach",
    "range_reach",
    "byte_char_reach",
    "choice_member",
    "choice_reach",
    "shuffle_reaches",
    "shuffle_uniform",
    "reach_refuted",
    "sample_refuted"
   ],
   "note": "Holds for ranges up to 2^31 - 1. Refuted above: rand_int(4294967297) is always 0 and rand_int(3000000000) never exceeds 1294967295, as the bound is cut to a C int; sample(arr, 4294967297) takes one element instead of panicking. The choices are rand() mod n, whose own bias is not modelled."
  },
  {
   "property": "C148",
   "status": "partial",
   "theorems": [
    "buffer_partial",
    "buffer_refuted"
   ],
   "note": "Proved for outputs below 2^61 bytes, an initial size of at least one byte and indentations that are not negative and fit an int. Refuted without: a buffer of no bytes is written to, a negative indentation reads outside. strlen and vsnprintf are given by their results."
  },
  {
   "property": "C149",
   "status": "partial",
   "theorems": [
    "each_variable_partial",
    "each_temporary_visits",
    "each_string_partial",
    "visit_all",
    "each_refuted"
   ],
   "note": "Proved for array variables the body does not assign, for literals and results of calls, and for ASCII strings. Refuted: assigning the variable in the body makes the loop read the new array (P0033 or foreign elements) and leaves the guard at -1, so the next loop is unguarded; appending panics although STANDARD.md calls it safe; bytes above 127 come as negative numbers. Maps, nested loops and return are left to C16, C76 and C105."
  },
  {
   "property": "C150",
   "status": "partial",
   "theorems": [
    "import_preserves_partial",
    "merge_reverses",
    "import_refuted"
   ],
   "note": "Proved for modules of at most 256 names, no parameter or variable of a function having the name of a declaration of the module, and no other name equal to a prefixed one. Refuted without: uses of a parameter or variable with such a name are renamed but its declaration is not, so the module variable is read or written instead; names after the 256th are not renamed. merge_reverses: the variables of a module are merged in reverse order. Types are in C97; struct, enum and sibling-import names are not modelled."
  },
  {
   "property": "C151",
   "status": "partial",
   "theorems": [
    "cc_partial",
    "cc_runs",
    "cc_names_fit",
    "cc_temp_shared",
    "cc_refuted",
    "cc_words_refuted"
   ],
   "note": "False in general: a single quote in the directory of the compiler itself is not checked when the archive is found there (cc_refuted, cc_words_refuted). The file named on the command line is shared by builds of the same base name (cc_temp_shared). The command with the list of runtime sources, used when no archive is found, and the redirection are not modelled."
  }
 ]
}