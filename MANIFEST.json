{
 "claims": [
  {
   "property": "C01",
   "status": "proved",
   "theorems": [
    "C01_itoa_atoi",
    "C01_text_unique",
    "C01_ulong4_finding"
   ],
   "note": ""
  },
  {
   "property": "C02",
   "status": "proved",
   "theorems": [
    "C02_atoi_exact",
    "C02_unsigned_language",
    "C02_atoi_string_exact",
    "C02_minus_junk_finding",
    "C02_nul_overread_finding"
   ],
   "note": "exact language incl. the documented deviation; NUL mode needs readable slack (finding)"
  },
  {
   "property": "C03",
   "status": "proved",
   "theorems": [
    "C03_hextoi_exact",
    "C03_itohex_hextoi",
    "C03_itobin"
   ],
   "note": ""
  },
  {
   "property": "C04",
   "status": "proved",
   "theorems": [
    "C04_uintToDec",
    "C04_intToDec",
    "C04_uintToHex",
    "C04_uintToBin",
    "C04_itoaWithZero"
   ],
   "note": ""
  },
  {
   "property": "C05",
   "status": "proved",
   "theorems": [
    "C05_round_trip"
   ],
   "note": ""
  },
  {
   "property": "C06",
   "status": "proved",
   "theorems": [
    "C06_encode_flat",
    "C06_encode_lines",
    "C06_layout_unique",
    "C06_bad_line_size"
   ],
   "note": ""
  },
  {
   "property": "C07",
   "status": "proved",
   "theorems": [
    "C07_decoder_writes",
    "C07_decode",
    "C07_decode_foreign",
    "C07_pad_finding"
   ],
   "note": ""
  },
  {
   "property": "C08",
   "status": "proved",
   "theorems": [
    "C08_get",
    "C08_set",
    "C08_get_set",
    "C08_byteSwap",
    "C08_byteSwap16_old"
   ],
   "note": ""
  },
  {
   "property": "C09",
   "status": "proved",
   "theorems": [
    "C09_variable_int",
    "C09_cross_width_finding"
   ],
   "note": "same-type round trip for both byte orders, 4- and 8-byte types, all schedules of short reads, all truncations; loading at another width is not value preserving (finding)"
  },
  {
   "property": "C10",
   "status": "proved",
   "theorems": [
    "C10_round_trip",
    "C10_c_string",
    "C10_sequence",
    "C10_seq_replaces",
    "C10_map_merges",
    "C10_set_merges",
    "C10_unordered_map",
    "C10_truncated",
    "C10_sequence_truncated",
    "C10_prefix_free"
   ],
   "note": "any nesting depth; load into a nonempty map/set merges"
  },
  {
   "property": "C11",
   "status": "proved",
   "theorems": [
    "C11_read_exact",
    "C11_read_bool_exact",
    "C11_readChar"
   ],
   "note": ""
  },
  {
   "property": "C12",
   "status": "proved",
   "theorems": [
    "C12_memory_input",
    "C12_string_input",
    "C12_reads_partition",
    "C12_memory_output",
    "C12_memory_output_throw",
    "C12_string_output"
   ],
   "note": ""
  },
  {
   "property": "C13",
   "status": "proved",
   "theorems": [
    "C13_round_trip"
   ],
   "note": ""
  },
  {
   "property": "C14",
   "status": "proved",
   "theorems": [
    "C14_reads_rows",
    "C14_separator",
    "C14_last_row",
    "C14_limit_cumulative",
    "C14_chunking",
    "C14_total",
    "C14_ff_finding",
    "C14_open_quote_finding",
    "C14_cr_finding"
   ],
   "note": ""
  },
  {
   "property": "C15",
   "status": "proved",
   "theorems": [
    "C15_lines",
    "C15_lines_exist",
    "C15_lines_unique",
    "C15_getRemain",
    "C15_last_cr_finding"
   ],
   "note": ""
  },
  {
   "property": "C16",
   "status": "proved",
   "theorems": [
    "C16_overlong",
    "C16_bounds",
    "C16_limit1_finding"
   ],
   "note": ""
  },
  {
   "property": "C17",
   "status": "proved",
   "theorems": [
    "C17_accepts",
    "C17_sound",
    "C17_total",
    "C17_ref_next",
    "C17_ref_skip",
    "C17_bad_lead_finding"
   ],
   "note": ""
  },
  {
   "property": "C18",
   "status": "proved",
   "theorems": [
    "C18_append",
    "C18_refuses",
    "C18_string",
    "C18_string_decode",
    "C18_negative_finding"
   ],
   "note": ""
  },
  {
   "property": "C19",
   "status": "proved",
   "theorems": [
    "C19_inverse",
    "C19_utf16_exact",
    "C19_utf8_exact",
    "C19_surrogate_finding"
   ],
   "note": ""
  },
  {
   "property": "C20",
   "status": "proved",
   "theorems": [
    "C20_split",
    "C20_join_split"
   ],
   "note": ""
  },
  {
   "property": "C21",
   "status": "proved",
   "theorems": [
    "C21_trim",
    "C21_unique",
    "C21_idempotent",
    "C21_IsSpace",
    "C21_IsSpace_char",
    "C21_Strip"
   ],
   "note": ""
  },
  {
   "property": "C22",
   "status": "proved",
   "theorems": [
    "C22_compare",
    "C22_preorder",
    "C22_equal",
    "C22_start_with",
    "C22_case_conversion",
    "C22_find",
    "C22_empty_finding"
   ],
   "note": ""
  },
  {
   "property": "C23",
   "status": "proved",
   "theorems": [
    "C23_history",
    "C23_append_narrow_finding",
    "C23_extract_wrap_finding",
    "C23_extract_dst_finding"
   ],
   "note": ""
  },
  {
   "property": "C24",
   "status": "proved",
   "theorems": [
    "C24_equality",
    "C24_length_finding",
    "C24_dirty_finding"
   ],
   "note": ""
  },
  {
   "property": "C25",
   "status": "proved",
   "theorems": [
    "C25_copy",
    "C25_shift_left",
    "C25_ShiftLeft_edge",
    "C25_ShiftRight"
   ],
   "note": ""
  },
  {
   "property": "C26",
   "status": "proved",
   "theorems": [
    "C26_init",
    "C26_ready",
    "C26_rank_get",
    "C26_frozen",
    "C26_dirty_finding",
    "C26_rank0_finding"
   ],
   "note": "Both ways of building (init from words; resize/set/ready). Set bits after the size in the last word are counted; rank0 past the end is not clamped."
  },
  {
   "property": "C27",
   "status": "proved",
   "theorems": [
    "C27_select",
    "C26_init",
    "C26_ready",
    "C27_zeros_finding",
    "C27_block_counter_finding"
   ],
   "note": "With select and 2^32 blocks (size over 2^40-256) building may not end: C27_block_counter_finding."
  },
  {
   "property": "C28",
   "status": "proved",
   "theorems": [
    "C28_select64",
    "C28_popcnt",
    "C28_bsf_bsr"
   ],
   "note": ""
  },
  {
   "property": "C29",
   "status": "proved",
   "theorems": [
    "C29_load_save",
    "C29_same_answers",
    "C29_init_saves",
    "C29_freezed_finding"
   ],
   "note": ""
  },
  {
   "property": "C30",
   "status": "proved",
   "theorems": [
    "C30_wavelet",
    "C30_bitlen0_finding",
    "C30_value_finding",
    "C30_rankLt_finding"
   ],
   "note": "Sequences of fewer than 2^32 values that fit in valBitLen <= 16 bits; get needs valBitLen > 0. rankLt is exact when (valBitLen-1)*size < 2^32; beyond, the uint32_t table overflows (C30_rankLt_finding). The object may be new, reused or loaded."
  },
  {
   "property": "C31",
   "status": "proved",
   "theorems": [
    "C31_index",
    "C31_index_end_to_end",
    "C31_save_load",
    "C31_refused",
    "C31_raw16_finding",
    "C31_sais_error_finding",
    "C31_reinit_finding",
    "C31_raw_zero_key_finding"
   ],
   "note": "Every text below 2^31-1 symbols on a fresh object, 8- and 16-bit symbols, raw and coded mode, any sampling rate, any key (raw keys without the terminator 0). saisxx is a parameter returning the suffix array; the model of the repository's own saisxx is proved to meet the contract (C64), and C31_index_end_to_end uses it."
  },
  {
   "property": "C32",
   "status": "proved",
   "theorems": [
    "C32_queries",
    "C32_save_load",
    "C32_too_long",
    "C32_dirty_finding",
    "C32_reinit_finding",
    "C32_limit_finding"
   ],
   "note": "For every source of up to 2^32-2^14-2^10+1 bits built on a fresh object, get, rank1 and rank0 equal the bit and the counts at every position; above that size the 32-bit positions may wrap (C32_limit_finding). rank1 at or past the end needs the unused bits of the last word to be zero (C32_dirty_finding). A second init on the same object keeps stale blocks (C32_reinit_finding). save/load round trip."
  },
  {
   "property": "C33",
   "status": "proved",
   "theorems": [
    "C33_sha1"
   ],
   "note": "Messages below 2^61 bytes (the 64-bit length field)."
  },
  {
   "property": "C34",
   "status": "proved",
   "theorems": [
    "C34_sha256",
    "C34_digest_buffer",
    "C34_constants",
    "C34_no_reset_finding"
   ],
   "note": "Messages below 2^61 bytes. digest does not reset the object: clear() is needed between messages (C34_no_reset_finding)."
  },
  {
   "property": "C35",
   "status": "proved",
   "theorems": [
    "C35_sha512",
    "C35_digest_buffer",
    "C35_constants"
   ],
   "note": "Messages below 2^61 bytes: the code keeps a 64-bit bit count."
  },
  {
   "property": "C36",
   "status": "proved",
   "theorems": [
    "C36_hmac"
   ],
   "note": ""
  },
  {
   "property": "C37",
   "status": "proved",
   "theorems": [
    "C37_siphash"
   ],
   "note": ""
  },
  {
   "property": "C38",
   "status": "proved",
   "theorems": [
    "C38_chain",
    "C38_fnv1a",
    "C38_sensitive",
    "C38_sensitive_bytes",
    "C38_zero_finding",
    "C38_hash64_chain_finding"
   ],
   "note": "Chaining holds for hash32 whenever the intermediate hash is not 0 (C38_zero_finding shows why); hash64 folds its result and does not chain (C38_hash64_chain_finding)."
  },
  {
   "property": "C39",
   "status": "proved",
   "theorems": [
    "C39_xorshift_bijective",
    "C39_xorshift",
    "C39_plus_bijective",
    "C39_plus",
    "C39_pcg",
    "C39_pcg_bijective",
    "C39_read",
    "C39_read_split",
    "C39_pcg_read",
    "C39_zero_seed_finding"
   ],
   "note": "XorShift128Plus(0,0) and Xoroshiro128Plus(0,0) are accepted and stay at zero (C39_zero_seed_finding)."
  },
  {
   "property": "C40",
   "status": "proved",
   "theorems": [
    "C40_shuffle",
    "C40_all_arrangements",
    "C40_unbiased"
   ],
   "note": ""
  },
  {
   "property": "C41",
   "status": "proved",
   "theorems": [
    "C41_array",
    "C41_overflow_finding",
    "C41_self_move_finding"
   ],
   "note": "Sizes whose byte count fits in 64 bits; beyond, the multiplication wraps (C41_overflow_finding). Also proves no out-of-block access, no double free and no leak. Self move-assignment empties the array (C41_self_move_finding)."
  },
  {
   "property": "C42",
   "status": "proved",
   "theorems": [
    "C42_load",
    "C42_grammar_unambiguous",
    "C42_round_trip",
    "C42_round_trip_queries",
    "C42_empty_key_finding",
    "C42_value_lf_finding",
    "C42_value_cr_finding",
    "C42_global_section_finding"
   ],
   "note": "load characterised for every text and start config; round trip for every config a program can build whose values have no LF / final CR"
  },
  {
   "property": "C43",
   "status": "proved",
   "theorems": [
    "C43_convertInt",
    "C43_hex_clobber_finding"
   ],
   "note": "All eight integer types, every NUL-free text. Plain numerals follow the atoi language of C02."
  },
  {
   "property": "C44",
   "status": "proved",
   "theorems": [
    "C44_parse",
    "C44_outcomes",
    "C44_again",
    "C44_reading_unique",
    "C44_twice_finding",
    "C44_bad_rest_finding",
    "C44_swallowed_delimiter_finding",
    "C44_dash_exits_finding",
    "C44_start0_finding"
   ],
   "note": "A declared Option and any number of successful calls of parse, startPos >= 1 (what a failing call leaves behind is not modelled). Values rejected by the variable-length parameter are dropped silently (finding)."
  },
  {
   "property": "C45",
   "status": "proved",
   "theorems": [
    "C45_unescape",
    "C45_unescape_throws",
    "C45_round_trip",
    "C45_escaped_is_plain"
   ],
   "note": ""
  },
  {
   "property": "C46",
   "status": "proved",
   "theorems": [
    "C46_parse",
    "C46_safe",
    "C46_unambiguous",
    "C46_print_parse",
    "C46_first_tag",
    "C46_empty_tag_finding",
    "C46_text_lost_finding",
    "C46_unescaped_finding",
    "C46_mixed_text_finding"
   ],
   "note": "parse accepts exactly the stated grammar, for every text; serialization round trip for trees without text whose values have no double quote (operator<< drops text and does not escape: findings)."
  },
  {
   "property": "C47",
   "status": "proved",
   "theorems": [
    "C47_parse",
    "C47_round_trip",
    "C47_calendar",
    "C47_feb30_finding",
    "C47_overread_finding",
    "C47_nul_finding"
   ],
   "note": "Every NUL-free text is classified exactly; round trip for every time from 1970 through the year 3000. Days that do not exist in the month (up to 31) are accepted as mktime normalises them (finding)."
  },
  {
   "property": "C48",
   "status": "proved",
   "theorems": [
    "C48_round_trip",
    "C48_reverse",
    "C48_order",
    "C48_before_1970_finding"
   ],
   "note": "Times whose 100 ns count fits in the signed 64-bit product the code forms."
  },
  {
   "property": "C49",
   "status": "proved",
   "theorems": [
    "C49_history",
    "C49_pairs",
    "C49_equal",
    "C49_save_load"
   ],
   "note": "Both position tables, every history of push_back, iteration and clear with fewer than 2^30-1 pairs (the packed table's cursor is a 32-bit byte offset)."
  },
  {
   "property": "C50",
   "status": "proved",
   "theorems": [
    "C50_intersection",
    "C50_union",
    "C50_inner",
    "C50_inner_same"
   ],
   "note": "Any two reachable vectors, of either table kind."
  },
  {
   "property": "C51",
   "status": "proved",
   "theorems": [
    "C51_top",
    "C51_small_finding",
    "C51_setSize_finding",
    "C51_nan_finding"
   ],
   "note": "Every history of add and getTable for 2 <= maxSize < 2^31 and totally ordered scores."
  },
  {
   "property": "C52",
   "status": "proved",
   "theorems": [
    "C52_count",
    "C52_ready",
    "C52_bijection",
    "C52_save_load",
    "C52_bytes",
    "C52_bytes_save_load",
    "C52_wrap_finding",
    "C52_stale_finding"
   ],
   "note": "Any history of clear/append/ready; std::sort and the hash table's order are arbitrary. Counts are modulo the width of Int (finding), and indices must fit in Int."
  },
  {
   "property": "C53",
   "status": "proved",
   "theorems": [
    "C53_at_most_once",
    "C53_stops",
    "C53_exactly_once",
    "C53_error",
    "C53_terminates",
    "C53_completes",
    "C53_edge",
    "C53_empty_what_finding",
    "C53_begin_fail_finding"
   ],
   "note": "Every interleaving of any number of workers, body calls split into start and end; thread creation succeeds in the main theorems (finding for the failing path)."
  },
  {
   "property": "C54",
   "status": "proved",
   "theorems": [
    "C54_no_extra",
    "C54_no_lost_signal",
    "C54_delivered",
    "C54_settles",
    "C54_coalesce",
    "C54_pipe",
    "C54_pipe_interrupt_finding",
    "C54_windows"
   ],
   "note": "Any number of threads, every interleaving, spurious wakeups; all three builds."
  },
  {
   "property": "C55",
   "status": "proved",
   "theorems": [
    "C55_never_twice",
    "C55_exactly_once",
    "C55_concurrent_close",
    "C55_discipline",
    "C55_no_hang",
    "C55_overwrite_finding",
    "C55_move_race_finding",
    "C55_self_move_finding"
   ],
   "note": "Any number of objects and threads, every interleaving, numbers reused by the system. Exactly-once needs that no store overwrites the handle; C55_discipline gives a usage rule that guarantees it, the findings show it is needed."
  },
  {
   "property": "C56",
   "status": "proved",
   "theorems": [
    "C56_file_write",
    "C56_sock_write",
    "C56_sock_read",
    "C56_file_read",
    "C56_file_read_eof_finding"
   ],
   "note": "Every buffer and every schedule of short transfers, interruptions and errors; an unfinished call is the outcome Fuel."
  },
  {
   "property": "C57",
   "status": "proved",
   "theorems": [
    "C57_extension",
    "C57_base",
    "C57_base_unique",
    "C57_agree",
    "C57_slash",
    "C57_exe",
    "C57_list"
   ],
   "note": "All byte strings. Also GetExePath (Linux) and GetFileList."
  },
  {
   "property": "C58",
   "status": "proved",
   "theorems": [
    "C58_same",
    "C58_equiv",
    "C58_mapped",
    "C58_same_family",
    "C58_unset_finding",
    "C58_verify"
   ],
   "note": "All addresses of the two families; a family that is neither is never the same as anything (finding)."
  },
  {
   "property": "C59",
   "status": "proved",
   "theorems": [
    "C59_df",
    "C59_df_one_spelling",
    "C59_df_spelling_finding",
    "C59_df_term",
    "C59_count",
    "C59_term",
    "C59_term_oob_finding",
    "C59_missing_vectors_finding",
    "C59_capital_keyword_finding"
   ],
   "note": "Every corpus below 2^31 words and documents; doubles are abstract (idf and product are parameters)."
  },
  {
   "property": "C60",
   "status": "proved",
   "theorems": [
    "C60_header",
    "C60_header_sound",
    "C60_own_header",
    "C60_compress",
    "C60_flush_once",
    "C60_decompress",
    "C60_read",
    "C60_truncated",
    "C60_round_trip",
    "C60_trailer_unverified_finding"
   ],
   "note": "For any deflate/inflate meeting the stated contract of zlib (records deflate_ok and inflate_ok; a toy codec meets them); any buffering on both sides, any header with optional fields, any truncation."
  },
  {
   "property": "C61",
   "status": "proved",
   "theorems": [
    "C61_save_load"
   ],
   "note": ""
  },
  {
   "property": "C62",
   "status": "proved",
   "theorems": [
    "C62_pcg_full_period"
   ],
   "note": ""
  },
  {
   "property": "C63",
   "status": "proved",
   "theorems": [
    "C63_read",
    "C63_int_cast_finding"
   ],
   "note": "Requests below 2^31 bytes; from 2^31 the int cast overflows the buffer (C63_int_cast_finding)."
  },
  {
   "property": "C64",
   "status": "proved",
   "theorems": [
    "C64_suffix_array",
    "C64_success",
    "C64_unique",
    "C64_refused",
    "C64_meets_C31",
    "C31_index_end_to_end"
   ],
   "note": "Every text with n, k below 2^31, any initial content of SA, any pattern of allocation failures; single-threaded build, indices as mathematical integers (all values stay between -n and n)."
  },
  {
   "property": "C65",
   "status": "proved",
   "theorems": [
    "C65_bwt",
    "C65_success",
    "C65_refused",
    "C65_lossless",
    "C65_injective"
   ],
   "note": "Every text with n, k below 2^31, any initial content of U and A, any pattern of allocation failures; T, U and A distinct arrays; single-threaded build. The transform is specified from the suffix array (is_bwt); C65_lossless: it determines the text."
  },
  {
   "property": "C66",
   "status": "proved",
   "theorems": [
    "C66_reported",
    "C66_runs",
    "C66_returns",
    "C66_uninit_finding",
    "C66_lost_finding",
    "C66_stdio_finding",
    "C66_intr_finding",
    "C66_zombie_finding"
   ],
   "note": "POSIX branch, one thread. The condition notice_arrives is exact in the code's intent: the findings show that each part of it can fail, and that with the loop as written (limit 1024) a failing execv is reported as success."
  },
  {
   "property": "C67",
   "status": "proved",
   "theorems": [
    "C67_caller",
    "C67_program",
    "C67_stdin_finding",
    "C67_empty_finding"
   ],
   "note": "POSIX branch, one thread; the limit of the closing loop is the one the code uses (1024, or what it finds in the uninitialised variable)."
  },
  {
   "property": "C68",
   "status": "proved",
   "theorems": [
    "C68_answers",
    "C68_exclusive",
    "C68_reuse_finding",
    "C68_assign_finding"
   ],
   "note": "Any number of objects and children, one thread; assertions enabled."
  },
  {
   "property": "C69",
   "status": "proved",
   "theorems": [
    "C69_arguments",
    "C69_program",
    "C69_backslash_finding",
    "C69_inject_finding"
   ],
   "note": "Windows branch: the text of the command line; CreateProcess itself and NUL characters inside arguments are outside."
  },
  {
   "property": "C70",
   "status": "proved",
   "theorems": [
    "C70_messages",
    "C70_files",
    "C70_throws",
    "C70_write_open",
    "C70_no_leak",
    "C70_leak_finding",
    "C70_equal_finding",
    "C70_nul_finding"
   ],
   "note": "One thread, POSIX branch; the text of the time and of the format are inputs."
  },
  {
   "property": "C71",
   "status": "proved",
   "theorems": [
    "C71_notify_all",
    "C71_notify_all_returns",
    "C71_notify_one",
    "C71_no_more",
    "C71_mutex",
    "C71_return",
    "C71_steal_finding",
    "C71_stored_finding"
   ],
   "note": "Condition: notifyAll is called with the mutex held (without it the finding shows a deadlock) and fewer than 2^31 notifications are pending. Sequentially consistent memory; the semaphore, event and mutex are Windows' own."
  },
  {
   "property": "C72",
   "status": "proved",
   "theorems": [
    "C72_values",
    "C72_keys",
    "C72_copy_finding"
   ],
   "note": "POSIX branch; the pthread functions behave as POSIX says. Objects are not copied (the finding shows why)."
  },
  {
   "property": "C73",
   "status": "proved",
   "theorems": [
    "C73_posix",
    "C73_windows",
    "C73_whole",
    "C73_empty_finding",
    "C73_size32_finding"
   ],
   "note": "Both branches; the whole-file statement for sizes that fit size_t."
  },
  {
   "property": "C74",
   "status": "proved",
   "theorems": [
    "C74_members",
    "C74_text_unique",
    "C74_self_assign_finding",
    "C74_append_self_finding"
   ],
   "note": "std::basic_string behaves as the standard says; no allocation failure, no max_size. Assigning an object to itself is excluded (the finding shows why)."
  },
  {
   "property": "C75",
   "status": "proved",
   "theorems": [
    "C75_relations",
    "C75_total_order",
    "C75_utf8_order",
    "C75_utf16_order_finding"
   ],
   "note": "Complete. A lone UTF-16 trail surrogate stands for itself (finding of C19)."
  },
  {
   "property": "C76",
   "status": "proved",
   "theorems": [
    "C76_shrBit",
    "C76_shlBit",
    "C76_rotrByte",
    "C76_rotlByte",
    "C76_swap_copy",
    "C76_bit_scan",
    "C76_mask",
    "C76_rotate_far_finding"
   ],
   "note": "The SSE instructions and the compiler builtins behave as their manuals say. shrBit and shlBit use an operator| that the repository does not define (they cannot be instantiated); it is read as por. Counts above 16 do not rotate (finding)."
  },
  {
   "property": "C77",
   "status": "proved",
   "theorems": [
    "C77_run",
    "C77_macros",
    "C77_equal",
    "C77_isEqual",
    "C77_baseName",
    "C77_equal_twice_finding",
    "C77_size_int_finding",
    "C77_float_finding"
   ],
   "note": "2^31 or more checks would overflow the int counters. Destructors that throw and argc = 0 are not modelled."
  },
  {
   "property": "C78",
   "status": "proved",
   "theorems": [
    "C78_sum",
    "C78_bench",
    "C78_bench_c",
    "C78_backwards_finding"
   ],
   "note": "put (printing) not modelled."
  },
  {
   "property": "C79",
   "status": "proved",
   "theorems": [
    "C79_step",
    "C79_run",
    "C79_no_leak",
    "C79_swap_part_finding"
   ],
   "note": "Swap of a value with a part of itself is excluded (finding). The size of the machine stack is not modelled: copying and destroying recurse as deep as the value."
  },
  {
   "property": "C80",
   "status": "proved",
   "theorems": [
    "C80_read",
    "C80_readSome",
    "C80_write",
    "C80_life",
    "C80_no_leak",
    "C80_new_fails",
    "C80_results",
    "C80_read_eof_finding",
    "C80_close_first_finding",
    "C80_reconnect_finding"
   ],
   "note": "The TLS library is a parameter: its answers are any schedule."
  },
  {
   "property": "C81",
   "status": "proved",
   "theorems": [
    "C81_sizes",
    "C81_hash",
    "C81_static",
    "C81_union",
    "C81_names",
    "C81_hmac",
    "C81_pieces",
    "C81_roundtrip",
    "C81_roundtrip_pad",
    "C81_out_size",
    "C81_setup",
    "C81_copy_finding",
    "C81_ctor_leak_finding",
    "C81_null_ctx_finding",
    "C81_hmac_key_finding",
    "C81_iv_finding"
   ],
   "note": "The OpenSSL primitives are parameters; keys below 2^31 bytes, beyond that a finding; a CBC iv below 15 bytes is a finding."
  },
  {
   "property": "C82",
   "status": "proved",
   "theorems": [
    "C82_atomic",
    "C82_exclusive",
    "C82_no_lost_wakeup",
    "C82_progress",
    "C82_copy_finding",
    "C82_nested_finding"
   ],
   "note": "One mutex and one condition variable; the Windows condition variable is C71."
  },
  {
   "property": "C83",
   "status": "proved",
   "theorems": [
    "C83_unit",
    "C83_range",
    "C83_normal",
    "C83_nearest",
    "C83_upper_finding",
    "C83_seed_finding"
   ],
   "note": "The documented half-open interval holds for the default bounds; in general the upper bound can be returned (finding)."
  },
  {
   "property": "C84",
   "status": "proved",
   "theorems": [
    "C84_message",
    "C84_injective",
    "C84_nothrow",
    "C84_errno",
    "C84_errno_read_back",
    "C84_trace",
    "C84_depth",
    "C84_wide",
    "C84_nul_finding",
    "C84_late_item_finding",
    "C84_wide_finding"
   ],
   "note": "Items without NUL bytes; with them the message is cut (finding)."
  },
  {
   "property": "C85",
   "status": "proved",
   "theorems": [
    "C85_lines",
    "C85_all",
    "C85_oneline",
    "C85_roundtrip",
    "C85_lookup",
    "C85_dropped_finding",
    "C85_first_bracket_finding",
    "C85_nul_finding",
    "C85_top_section_finding"
   ],
   "note": "Lines without NUL bytes; sections that do not end at 2^64 (findings)."
  },
  {
   "property": "C86",
   "status": "proved",
   "theorems": [
    "C86_getenv",
    "C86_long_value_finding",
    "C86_nul_key_finding"
   ],
   "note": "On Windows for values shorter than 4096 bytes (finding)."
  },
  {
   "property": "C87",
   "status": "proved",
   "theorems": [
    "C87_safe",
    "C87_delivered",
    "C87_setup_failure",
    "C87_destroyed_finding",
    "C87_second_finding"
   ],
   "note": "As long as the applications live (finding)."
  },
  {
   "property": "C88",
   "status": "proved",
   "theorems": [
    "C88_user_id",
    "C88_item_id",
    "C88_load",
    "C88_start",
    "C88_step",
    "C88_search",
    "C88_similar",
    "C88_perplexity",
    "C88_history",
    "C88_unknown_finding",
    "C88_no_data_finding",
    "C88_restart_finding",
    "C88_late_finding",
    "C88_repeat_finding"
   ],
   "note": "One line per item, queries about loaded users and items, one startLearning after loading (findings otherwise); fewer than 2^30-1 observations."
  },
  {
   "property": "C89",
   "status": "proved",
   "theorems": [
    "C89_probabilities",
    "C89_likelihood"
   ],
   "note": "Exact real arithmetic; uses the standard library's axioms for the reals. Rounding is not modelled."
  },
  {
   "property": "C90",
   "status": "proved",
   "theorems": [
    "C90_groups",
    "C90_unit",
    "C90_unit_assert",
    "C90_compress",
    "C90_unit_finding",
    "C90_compress_finding"
   ],
   "note": "Products of sizes fit in int (findings otherwise)."
  },
  {
   "property": "C91",
   "status": "proved",
   "theorems": [
    "C91_gram_schmidt",
    "C91_near",
    "C91_svd",
    "C91_distance",
    "C91_recover",
    "C91_refused",
    "C91_tall_finding"
   ],
   "note": "Exact real arithmetic; uses the standard library's axioms for the reals; the SVD of the small square matrix is assumed correct for that matrix (contract shown satisfiable)."
  },
  {
   "property": "C92",
   "status": "proved",
   "theorems": [
    "C92_dense",
    "C92_vector",
    "C92_sparse",
    "C92_sparse_dense",
    "C92_safe",
    "C92_agree",
    "C92_header",
    "C92_blank_finding",
    "C92_lost_finding",
    "C92_order_finding",
    "C92_sparse_vector_finding",
    "C92_shape_finding",
    "C92_nan_finding"
   ],
   "note": "Number texts are a parameter with the contract number_format (instance proved for int). LoadSparseMatrix needs increasing columns, the first line must not be blank (findings otherwise)."
  },
  {
   "property": "C93",
   "status": "proved",
   "theorems": [
    "C93_parse",
    "C93_history",
    "C93_walk",
    "C93_owned",
    "C93_string",
    "C93_copy_finding",
    "C93_parse_finding",
    "C93_zero_finding",
    "C93_short_finding",
    "C93_newline_finding"
   ],
   "note": "The analyser is a parameter. next is called only before the end, and nodes are used only before the next analysis (findings otherwise)."
  },
  {
   "property": "C94",
   "status": "proved",
   "theorems": [
    "C94_is",
    "C94_is_range",
    "C94_range_finding",
    "C94_scan",
    "C94_case",
    "C94_narrow",
    "C94_narrow_finding",
    "C94_value",
    "C94_in",
    "C94_in_finding",
    "C94_names",
    "C94_alpha_finding",
    "C94_pattern",
    "C94_bad_utf16",
    "C94_nul_finding",
    "C94_overloads"
   ],
   "note": "The regular expression engine is a parameter. Patterns have no NUL (finding otherwise)."
  },
  {
   "property": "C95",
   "status": "proved",
   "theorems": [
    "C95_posix",
    "C95_msvc",
    "C95_new",
    "C95_va_end_finding",
    "C95_alias_finding",
    "C95_clobber_finding"
   ],
   "note": "libc formatting is a parameter. The MSVC form needs arguments outside the destination (finding otherwise)."
  },
  {
   "property": "C96",
   "status": "proved",
   "theorems": [
    "C96_call",
    "C96_run",
    "C96_open",
    "C96_create",
    "C96_append",
    "C96_reads",
    "C96_closed",
    "C96_name_finding",
    "C96_nul_finding"
   ],
   "note": "POSIX branches over a modelled kernel."
  },
  {
   "property": "C97",
   "status": "proved",
   "theorems": [
    "C97_descriptors",
    "C97_restored",
    "C97_attached",
    "C97_sync_finding",
    "C97_append_finding"
   ],
   "note": "Histories without failing fdatasync in a destructor and without failing fstat/lseek in open; both are findings."
  },
  {
   "property": "C98",
   "status": "proved",
   "theorems": [
    "C98_connect",
    "C98_connect_close",
    "C98_bind",
    "C98_query",
    "C98_query_safe",
    "C98_accept",
    "C98_serve",
    "C98_timeout",
    "C98_waitForClose",
    "C98_retry_finding",
    "C98_bind_leak_finding",
    "C98_accept_leak_finding",
    "C98_negative_finding",
    "C98_longest_finding",
    "C98_linger_finding",
    "C98_epoll_finding"
   ],
   "note": "Over a modelled kernel. The select variant; setLinger and the epoll variant are findings."
  },
  {
   "property": "C99",
   "status": "proved",
   "theorems": [
    "C99_set",
    "C99_port",
    "C99_freed",
    "C99_toStr",
    "C99_toStr_inj",
    "C99_leak_finding",
    "C99_nul_finding"
   ],
   "note": "The resolver and the IPv6 printer are parameters; C99_port needs a resolver that stores the port, C99_toStr_inj an injective printer."
  },
  {
   "property": "C100",
   "status": "proved",
   "theorems": [
    "C100_plain",
    "C100_size",
    "C100_exists",
    "C100_rename",
    "C100_rename_succeeds",
    "C100_remove",
    "C100_remove_succeeds",
    "C100_root_finding",
    "C100_slash_finding",
    "C100_backslash_finding",
    "C100_dangling_finding",
    "C100_race_finding"
   ],
   "note": "No concurrent change between the test and the rename, and to does not end with a backslash; both are findings."
  },
  {
   "property": "C101",
   "status": "proved",
   "theorems": [
    "C101_list",
    "C101_none",
    "C101_closed",
    "C101_error_finding",
    "C101_exe",
    "C101_exe_finding"
   ],
   "note": "readdir reports the whole directory (an error is a finding)."
  },
  {
   "property": "C102",
   "status": "proved",
   "theorems": [
    "C102_lines",
    "C102_words",
    "C102_insert",
    "C102_round_trip",
    "C102_bad",
    "C102_end",
    "C102_save",
    "C102_load_short",
    "C102_pop",
    "C102_plus",
    "C102_clear_finding",
    "C102_delim_finding"
   ],
   "note": "std::istream in the C locale."
  },
  {
   "property": "C103",
   "status": "proved",
   "theorems": [
    "C103_not_early",
    "C103_exact",
    "C103_returns",
    "C103_negative"
   ],
   "note": "POSIX branch; nanosleep as Linux implements it."
  },
  {
   "property": "C104",
   "status": "proved",
   "theorems": [
    "C104_true",
    "C104_false",
    "C104_iff",
    "C104_attr",
    "C104_processors",
    "C104_destroy_finding",
    "C104_negative_finding"
   ],
   "note": "POSIX branch."
  },
  {
   "property": "C105",
   "status": "proved",
   "theorems": [
    "C105_total",
    "C105_frame",
    "C105_add",
    "C105_tickets",
    "C105_exchange",
    "C105_take_once",
    "C105_cas",
    "C105_spinlock"
   ],
   "note": "Sequentially consistent memory; the builtins are atomic."
  },
  {
   "property": "C106",
   "status": "proved",
   "theorems": [
    "C106_isSet",
    "C106_print",
    "C106_int_round_trip",
    "C106_base_name",
    "C106_vec8_finding",
    "C106_copy_finding",
    "C106_copy_forgets_finding",
    "C106_grow_finding",
    "C106_twice_finding"
   ],
   "note": "usage() is in C117."
  },
  {
   "property": "C107",
   "status": "proved",
   "theorems": [
    "C107_count",
    "C107_bad",
    "C107_pairs",
    "C107_concat",
    "C107_top",
    "C107_table",
    "C107_empty_finding",
    "C107_wrap_finding"
   ],
   "note": "put() (printing) is not modelled."
  },
  {
   "property": "C108",
   "status": "proved",
   "theorems": [
    "C108_attr",
    "C108_attr_at",
    "C108_parse",
    "C108_deleted",
    "C108_never_parsed",
    "C108_reparse_finding",
    "C108_constructor_finding",
    "C108_copy_finding"
   ],
   "note": "When parseTag throws while it reads the root's own tag, the root's name and attributes are arbitrary in the model. xmlAttr_ cannot be observed and is left out."
  },
  {
   "property": "C109",
   "status": "proved",
   "theorems": [
    "C109_same",
    "C109_contexts",
    "C109_hmac",
    "C109_copy_finding",
    "C109_again_finding"
   ],
   "note": "OpenSSL is trusted. Behaviour of EVP calls after EVP_DigestFinal_ex is that of OpenSSL 3 and matters only to C109_again_finding. Programs that copy an object are outside the claim on EVP_MD_CTX (finding)."
  },
  {
   "property": "C110",
   "status": "proved",
   "theorems": [
    "C110_written",
    "C110_round_trip",
    "C110_errors",
    "C110_missing_finding",
    "C110_separator_finding",
    "C110_lost_finding"
   ],
   "note": "The read back is for rows within the limit of MAX_LINE_SIZE (10 MB of characters for the whole file, see C14_limit_cumulative). What is in the file after an error is not claimed."
  },
  {
   "property": "C111",
   "status": "proved",
   "theorems": [
    "C111_value",
    "C111_number",
    "C111_failed_load",
    "C111_space_finding",
    "C111_later_finding"
   ],
   "note": "The accepted numerals are those of C02, with its deviation for the smallest number of a signed type."
  },
  {
   "property": "C112",
   "status": "proved",
   "theorems": [
    "C112_session",
    "C112_refused",
    "C112_recover_finding"
   ],
   "note": "The words of the query file are read with operator>> in the C locale. Write errors after the output was opened are not modelled."
  },
  {
   "property": "C113",
   "status": "proved",
   "theorems": [
    "C113_shared",
    "C113_first",
    "C113_race_finding"
   ],
   "note": "Sequentially consistent steps; the C++ memory model is not modelled (in the safe case no thread writes)."
  },
  {
   "property": "C114",
   "status": "proved",
   "theorems": [
    "C114_compress",
    "C114_zero_is_no_length",
    "C114_uncompress",
    "C114_round_trip",
    "C114_sample",
    "C114_sample_bad",
    "C114_unopened_finding",
    "C114_ulong_finding",
    "C114_ten_finding"
   ],
   "note": "zlib is any deflate/inflate with non-empty streams that are read back (hypotheses of the theorems, met by a toy coder beside them)."
  },
  {
   "property": "C115",
   "status": "proved",
   "theorems": [
    "C115_every_file",
    "C115_too_long",
    "C115_compares"
   ],
   "note": "Files between the limit of C32 (2^32 - 2^14 - 2^10 + 1 bits) and 2^32 bits are not covered: see C32_limit_finding."
  },
  {
   "property": "C116",
   "status": "proved",
   "theorems": [
    "C116_two_step",
    "C116_accepted",
    "C116_help",
    "C116_outcomes",
    "C116_name_finding"
   ],
   "note": "On the model of option.hpp of C44."
  },
  {
   "property": "C117",
   "status": "proved",
   "theorems": [
    "C117_same",
    "C117_message",
    "C117_quiet",
    "C117_nameless_finding",
    "C117_hidden_finding"
   ],
   "note": "On the parser of C44; argc below 2^31."
  },
  {
   "property": "C118",
   "status": "proved",
   "theorems": [
    "C118_select",
    "C118_select64",
    "C118_table",
    "C118_zero_finding"
   ],
   "note": ""
  },
  {
   "property": "C119",
   "status": "proved",
   "theorems": [
    "C119_reading",
    "C119_args",
    "C119_bad_rank",
    "C119_last_finding",
    "C119_run",
    "C119_factors",
    "C119_untouched",
    "C119_status_finding",
    "C119_rank_finding"
   ],
   "note": "18 bytes behind an argument are readable (atoi looks at them); the numeric part of the decomposition is a parameter."
  },
  {
   "property": "C120",
   "status": "proved",
   "theorems": [
    "C120_objects",
    "C120_sequence",
    "C120_sucvector",
    "C120_csucvector",
    "C120_wavelet",
    "C120_frequency",
    "C120_frequency_bytes",
    "C120_fmindex",
    "C120_sparse",
    "C120_string",
    "C120_cut",
    "C120_one_reading"
   ],
   "note": "Memory is unlimited: a huge size in the bytes does not make the allocation fail in the model, except for cybozu::String."
  },
  {
   "property": "C121",
   "status": "proved",
   "theorems": [
    "C121_complete",
    "C121_prefix",
    "C121_flush_once",
    "C121_streams",
    "C121_released",
    "C121_retry_finding",
    "C121_silent_finding",
    "C121_hole_finding",
    "C121_leak_finding"
   ],
   "note": "deflate and crc32 are parameters with zlib's contract (deflate_ok of C60). Findings: a second flush after one that threw reports success; without an explicit flush a cut file is reported on stderr only; a stream that fails once and recovers gets a file with a hole; a throwing constructor leaks the deflate state."
  },
  {
   "property": "C122",
   "status": "proved",
   "theorems": [
    "C122_objects",
    "C122_sequence",
    "C122_string",
    "C122_sucvector",
    "C122_csucvector",
    "C122_wavelet",
    "C122_fmindex",
    "C122_frequency",
    "C122_sparse"
   ],
   "note": "Buffering inside std::ofstream is part of the stream: a failure it only notices when it is closed is not seen by save."
  },
  {
   "property": "C123",
   "status": "proved",
   "theorems": [
    "C123_history",
    "C123_uninitialised",
    "C123_reliable",
    "C123_shuffle"
   ],
   "note": "Buffers below 2 GiB; above, see C63_int_cast_finding. Without exceptions compiled in only read(bool*, ...) exists: C63."
  },
  {
   "property": "C124",
   "status": "proved",
   "theorems": [
    "C124_settings",
    "C124_families",
    "C124_serves",
    "C124_delivered",
    "C124_mode_finding",
    "C124_timeout_finding",
    "C124_one_client_finding"
   ],
   "note": "-m 0 listens on IPv4 only, against the help text: C124_mode_finding with C124_families. Clients that fail end the server: C124_one_client_finding."
  },
  {
   "property": "C125",
   "status": "proved",
   "theorems": [
    "C125_reading",
    "C125_clock_order",
    "C125_addSec",
    "C125_text_order",
    "C125_double",
    "C125_double_order",
    "C125_elapsed",
    "C125_uninitialised_finding",
    "C125_msec_finding"
   ],
   "note": "Milliseconds of 1000 or more (accepted by setTime) break the order: C125_msec_finding."
  },
  {
   "property": "C126",
   "status": "proved",
   "theorems": [
    "C126_aligned",
    "C126_within",
    "C126_upto16",
    "C126_before_block_finding"
   ],
   "note": "For alignments above 16 the claim is false: C126_before_block_finding; C126_within gives the exact domain."
  },
  {
   "property": "C127",
   "status": "proved",
   "theorems": [
    "C127_request",
    "C127_printed",
    "C127_error",
    "C127_page",
    "C127_nul_finding",
    "C127_total_finding"
   ],
   "note": "Pages with NUL and pages of 2^31 bytes or more: see the findings."
  },
  {
   "property": "C128",
   "status": "proved",
   "theorems": [
    "C128_objects",
    "C128_sample",
    "C128_memory",
    "C128_string",
    "C128_vector",
    "C128_istream",
    "C128_vector_to_vector",
    "C128_vector_finding"
   ],
   "note": "Reading past the end of a VecInputStream: see the finding."
  },
  {
   "property": "C129",
   "status": "proved",
   "theorems": [
    "C129_same",
    "C129_behind",
    "C129_wrap_finding"
   ],
   "note": "rankLt under the bound of C30 on the size (see C30_rankLt_finding)."
  },
  {
   "property": "C130",
   "status": "proved",
   "theorems": [
    "C130_words",
    "C130_errors",
    "C130_silent_finding"
   ],
   "note": ""
  }
 ]
}