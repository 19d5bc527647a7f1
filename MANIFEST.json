{"claims": [
{"property": "C01", "status": "proved", "theorems": ["C01_add_exact"], "note": ""},
{"property": "C02", "status": "proved", "theorems": ["C02_sub_saturating"], "note": ""},
{"property": "C03", "status": "proved", "theorems": ["C03_cmp_numeric"], "note": ""},
{"property": "C04", "status": "proved", "theorems": ["C04_mul_exact"], "note": ""},
{"property": "C05", "status": "partial", "theorems": ["C05_div_mod_refuted_diverges", "C05_div_mod_refuted_wrong", "C05_div_mod_diverges", "C05_div_mod_partial", "C05_div_mod_returned", "C05_boundary"], "note": "The full statement is false of the code: division diverges (2^128 / (2^64+1)) or returns a wrong quotient. Proved: right for every dividend exactly when the divisor is d*2^(64k) with d < 2^64 (C05_boundary), and a general characterisation of returned results and of divergence."},
{"property": "C06", "status": "proved", "theorems": ["C06_shl_exact", "C06_shl_other_counts"], "note": ""},
{"property": "C07", "status": "partial", "theorems": ["C07_shr_refuted", "C07_shr_refuted_big_count", "C07_shr_exact_iff", "C07_shr_partial"], "note": "False of the code (mask 1 << (s-1) keeps one bit only; count read from the lowest limb). Exact domain proved as an iff."},
{"property": "C08", "status": "proved", "theorems": ["C08_pow_exact", "C08_pow_u64_exact"], "note": ""},
{"property": "C09", "status": "partial", "theorems": ["C09_from_u64_refuted", "C09_built_canonical", "C09_built_equality"], "note": "from_u64(0) is not canonical; every other construction is proved canonical."},
{"property": "C10", "status": "proved", "theorems": ["C10_add_exact", "C10_sub_exact", "C10_neg_exact"], "note": ""},
{"property": "C11", "status": "proved", "theorems": ["C11_mul_exact"], "note": ""},
{"property": "C12", "status": "partial", "theorems": ["C12_cmp_refuted", "C12_cmp_exact", "C12_cmp_iff", "C12_cmp_eq"], "note": "cmp is reversed for two negative numbers; exact behaviour proved for all pairs."},
{"property": "C13", "status": "partial", "theorems": ["C13_div_mod_refuted", "C13_div_refuted_negative_zero", "C13_div_mod_partial", "C13_div_mod_positive_divisor_partial", "C13_div_partial", "C13_boundary"], "note": "The remainder takes the sign of the quotient and -1/2 gives a negative zero. C13_boundary: the division is the ECMAScript one for every dividend exactly when |b| = d*2^(64k), d < 2^64, and b is positive or -1."},
{"property": "C14", "status": "partial", "theorems": ["C14_from_i64_refuted", "C14_from_i64_min_refuted", "C14_from_i64_partial", "C14_release"], "note": "from_i64(0) is not canonical and i64::MIN overflows; all other arguments proved. Without overflow checks the value is right for every argument (C14_release)."},
{"property": "C15", "status": "proved", "theorems": ["C15_add_exact", "C15_sub_exact", "C15_negative_exact", "C15_canonical_unique"], "note": ""},
{"property": "C16", "status": "proved", "theorems": ["C16_mul_exact"], "note": ""},
{"property": "C17", "status": "partial", "theorems": ["C17_compare_refuted", "C17_compare_exact", "C17_compare_partial", "C17_compare_equal"], "note": "compare is reversed for two negative numbers with equal limb count; exact behaviour proved for all pairs."},
{"property": "C18", "status": "proved", "theorems": ["C18_equals_exact"], "note": ""},
{"property": "C19", "status": "proved", "theorems": ["C19_not_exact"], "note": ""},
{"property": "C20", "status": "partial", "theorems": ["C20_and_refuted", "C20_or_refuted", "C20_xor_refuted", "C20_and_iff", "C20_or_iff", "C20_xor_iff", "C20_bitwise_partial"], "note": "Wrong when the negative two's complement result has a zero top limb; exact domain proved as an iff for and, or, xor."},
{"property": "C21", "status": "proved", "theorems": ["C21_shl_exact", "C21_shl_negative_count", "C21_shl_huge_count"], "note": ""},
{"property": "C22", "status": "partial", "theorems": ["C22_shr_refuted", "C22_shr_refuted_positive", "C22_shr_iff", "C22_shr_huge_count", "C22_shr_zero"], "note": "Negative numbers round toward zero and the mask bug loses bits; exact domain proved as an iff."},
{"property": "C23", "status": "partial", "theorems": ["C23_boundary", "C23_div_mod_small_refuted", "C23_div_mod_diverges", "C23_div_mod_refuted_diverges", "C23_div_mod_refuted_sign", "C23_div_mod_refuted_quotient", "C23_div_mod_partial", "C23_div_mod_js_partial", "C23_div_mod_zero", "C23_returned", "C23_div_mod_odd_refuted"], "note": "Never panics, and a returned quotient is right modulo 2^(64n) (C23_returned). Wrong remainder whenever |a|<|b|; for |a|>=|b| the division is the ECMAScript one for every dividend exactly when |b| = d*2^(64k), d <= 2^63, and b is positive or -1 (C23_boundary). Every odd divisor above 2^64 has dividends of every length on which it never returns."},
{"property": "C24", "status": "partial", "theorems": ["C24_pow_refuted", "C24_pow_exact", "C24_pow_partial", "C24_pow_negative_exponent", "C24_pow_u64_exact", "C24_pow_u64_zero_refuted"], "note": "(-1)^odd = +1 in the code; all other bases and exponents below 2^64 proved."},
{"property": "C25", "status": "partial", "theorems": ["C25_to_bin_partial", "C25_to_bin_zero", "C25_to_bin_refuted", "C25_no_panic", "C25_small_refuted", "C25_lost_refuted"], "note": "Proved for exponents >= -27; the conversion never panics (C25_no_panic). False below: for every exponent <= -28 there are significands of every length on which it never returns (C25_small_refuted), and for 260 listed exponents from 28 to 344 it returns for no significand below 5^e*2^55 at all (C25_lost_refuted)."},
{"property": "C26", "status": "partial", "theorems": ["C26_to_f64_partial", "C26_to_f64_iff", "C26_to_f64_refuted", "C26_no_panic"], "note": "Exact domain proved as an iff: wrong exactly for values in the open interval (2^-1075, 2^-1074), which become 0. Never panics."},
{"property": "C27", "status": "partial", "theorems": ["C27_decimal_partial", "C27_decimal_refuted", "C27_no_panic", "C27_boundary", "C27_literal_partial", "C27_lost_refuted", "C27_wrong_refuted"], "note": "Proved in every context for literals with decimal exponent >= -27 (any digits). The boundary is exact: for every exponent <= -28 some literal is not converted (C27_boundary), for most of them no literal of ordinary length is (C27_lost_refuted), and some are converted to a wrong number (C27_wrong_refuted: 1.5477... with 53 decimals becomes 62772.57...)."},
{"property": "C28", "status": "proved", "theorems": ["C28_get_correct", "C28_get_total"], "note": ""},
{"property": "C29", "status": "proved", "theorems": ["C29_merge_union", "C29_merge_panic", "C29_merge_list"], "note": ""},
{"property": "C30", "status": "partial", "theorems": ["C30_from_range_refuted", "C30_from_one_refuted", "C30_nul_refuted", "C30_from_range_partial", "C30_from_one_partial", "C30_E000_exact"], "note": "Exact for every range or character that does not start at U+E000 (the range loses its first character; the single-character map also covers everything below) or at NUL (panic); both cases proved."},
{"property": "C31", "status": "partial", "theorems": ["C31_one_result", "C31_no_panic", "C31_exponent_panics", "C31_small_refuted", "C31_every_exponent_refuted", "C31_total_partial", "C31_total_refuted_panic", "C31_total_refuted_hang", "C31_lost_refuted"], "note": "Proved for every text in which all that looks like a number has a decimal exponent from -27 up and an exponent part within the 64-bit range. A panic comes only from an exponent part outside that range (C31_no_panic, C31_exponent_panics). False in general: for every exponent <= -28 some literal makes the tokenizer hang (C31_every_exponent_refuted), for most of them every literal of ordinary length (C31_lost_refuted)."},
{"property": "C32", "status": "proved", "theorems": ["C32_string", "C32_unterminated"], "note": ""},
{"property": "C33", "status": "partial", "theorems": ["C33_surrogate_refuted"], "note": "False: proved that every escaped surrogate yields InvalidHex and the rest of the literal is read as program text."},
{"property": "C34", "status": "proved", "theorems": ["C34_bigint"], "note": ""},
{"property": "C35", "status": "partial", "theorems": ["C35_negative_zero_refuted", "C35_positive_zero"], "note": "False: every spelling of negative zero reads as +0."},
{"property": "C36", "status": "partial", "theorems": ["C36_empty_fraction", "C36_lone_minus", "C36_empty_exponent_partial", "C36_empty_exponent_refuted", "C36_garbage", "C36_leading_zero"], "note": "Empty fraction, lone minus, leading zero, trailing garbage: always InvalidNumber. An empty exponent is rejected only at the end of the text or before a non-delimiter; before white space or punctuation it is accepted as exponent 0 (refuted)."},
{"property": "C37", "status": "proved", "theorems": ["C37_gap", "C37_line", "C37_sequence", "C37_unterminated_comment"], "note": "Blanks and block comments at any token boundary before any continuation; line breaks and line comments add one NewLine token, none at the end of the text."},
{"property": "C38", "status": "proved", "theorems": ["C38_identifier", "C38_punctuator", "C38_unexpected"], "note": ""},
{"property": "C39", "status": "proved", "theorems": ["C39_json", "C39_modules", "C39_unambiguous"], "note": "JSON mode as an iff for every loader; module graphs as an iff with a denotation (imports resolved as the code does, see C49)."},
{"property": "C40", "status": "proved", "theorems": ["C40_object", "C40_sorted"], "note": "Keys in code point order, values of the last occurrence; nested objects of every loaded value sorted."},
{"property": "C41", "status": "proved", "theorems": ["C41_error_final", "C41_trailing"], "note": ""},
{"property": "C42", "status": "proved", "theorems": ["C42_line_breaks", "C42_exports"], "note": "Equality of the whole outcome (value, error, cache) for values and exports; inside const/import/export heads a line break is an error, as in the grammar of C39."},
{"property": "C43", "status": "proved", "theorems": ["C43_const", "C43_undefined"], "note": "Latest definition wins; any module mentioning a name it neither defines nor imports is rejected."},
{"property": "C44", "status": "partial", "theorems": ["C44_identifier_key_refuted", "C44_identifier_key_partial"], "note": "False: an identifier key after a comma is rejected in every module; accepted in first position."},
{"property": "C45", "status": "partial", "theorems": ["C45_one_result", "C45_no_panic_partial", "C45_modules_partial", "C45_panic_only", "C45_modules_panic_only", "C45_semicolon_refuted", "C45_push_refuted", "C45_ranged_panic_only"], "note": "A panic comes only from a semicolon inside the value of a constant or from an exponent out of range, in single texts and in whole module graphs (C45_ranged_panic_only; drops of bigints are added in C98). False there: `const k = ;` panics, and so does the context-free push on a complete require."},
{"property": "C46", "status": "partial", "theorems": ["C46_terminates_partial", "C46_bounded_nesting", "C46_terminates_refuted"], "note": "Proved for all finite file systems with texts the tokenizer handles; nesting bounded by the number of files. A text on which the tokenizer hangs makes parse hang (refuted)."},
{"property": "C47", "status": "proved", "theorems": ["C47_once", "C47_same_value"], "note": ""},
{"property": "C48", "status": "proved", "theorems": ["C48_no_value", "C48_circular"], "note": "No value whenever a cycle is reachable; exactly CircularDependency when the cyclic import is the first statement of each module (an earlier error is reported otherwise)."},
{"property": "C49", "status": "partial", "theorems": ["C49_relative_refuted", "C49_one_directory_partial"], "note": "False: imports are resolved against the directory of the root module, and ./../m even to m itself (C82). Agrees with relative resolution when all files are in one directory."},
{"property": "C50", "status": "proved", "theorems": ["C50_canonical", "C50_same_place", "C50_idempotent", "C50_steps", "C50_split"], "note": ""},
{"property": "C51", "status": "partial", "theorems": ["C51_absolute_refuted"], "note": "False: proved that an import is never resolved to an absolute path."},
{"property": "C52", "status": "partial", "theorems": ["C52_success_partial", "C52_root_refuted", "C52_failure_refuted"], "note": "False: the root always stays in progress, failed modules too (a later import of a repaired module reports a cycle). On success exactly the root is left."},
{"property": "C53", "status": "partial", "theorems": ["C53_astral_refuted", "C53_rust_partial", "C53_round_trip_partial", "C53_surrogate_refuted", "C53_numbers_refuted"], "note": "Round trip proved for every value whose numbers print as plain decimals with at most 27 fraction digits and whose strings have no surrogates. With a printer like that of Rust (no exponent, at most 17 digits if there is a fraction, nearest), this covers every finite number above 2^-36 in magnitude (C53_rust_partial). With such numbers, a surrogate in any string or key at any depth makes the text unreadable (C53_astral_refuted). -0, NaN, infinities and 3e-51 do not come back either. f64::to_string is a parameter."},
{"property": "C54", "status": "partial", "theorems": ["C54_string", "C54_json_partial", "C54_nan_refuted", "C54_printable_partial", "C54_del_refuted"], "note": "A JSON text for the value whenever numbers print as JSON numbers; NaN and infinities do not. All characters in 0x20..0x7F; DELETE is not escaped (refuted)."},
{"property": "C55", "status": "partial", "theorems": ["C55_total_partial", "C55_bigint_refuted"], "note": "Proved without bigints. False: a bigint anywhere inside panics (todo!)."},
{"property": "C56", "status": "partial", "theorems": ["C56_text", "C56_proto_refuted", "C56_denotes_partial"], "note": "C56_text: for every object graph without bigints and every hash order, the module means exactly this value by a character-level grammar of JavaScript (any units in strings, every number printed as a literal for itself); false for objects with a key __proto__ (C56_proto_refuted). NaN and infinities are printed as names, bigints panic (C54, C55). C56_denotes_partial is the same through this tokenizer."},
{"property": "C57", "status": "proved", "theorems": ["C57_shared_once"], "note": "For every object graph without bigints and every hash order."},
{"property": "C58", "status": "partial", "theorems": ["C58_read_back_refuted", "C58_read_back_partial"], "note": "False as soon as a block is shared: the parser rejects the `;` after the constant. Proved when no block is shared."},
{"property": "C59", "status": "partial", "theorems": ["C59_round_trip_partial", "C59_numbers", "C59_positive_nan", "C59_numbers_exactly", "C59_negative_nan_refuted", "C59_nan_as_pointer_refuted", "C59_high_address_refuted"], "note": "Exact for every boolean, null, number and reference below 2^48 except negative NaNs, which read as other types (one even as a pointer); addresses from 2^48 up are misread. Exact domain of numbers proved as an iff."},
{"property": "C60", "status": "proved", "theorems": ["C60_one_type", "C60_ranges", "C60_is_ref"], "note": ""},
{"property": "C61", "status": "partial", "theorems": ["C61_has", "C61_from_tag_and_mask", "C61_tag_union_superposition", "C61_or_unchecked", "C61_or", "C61_or_exact_refuted", "C61_and", "C61_split", "C61_split_partition", "C61_split_partition_refuted", "C61_raw_values"], "note": "has, and, split and the raw values exact; or is the least pattern above the union (not the union: refuted); split by a mask of several bits loses members (refuted)."},
{"property": "C62", "status": "partial", "theorems": ["C62_no_fault", "C62_live_iff_referenced", "C62_contents", "C62_panics_only", "C62_written_length_refuted", "C62_written_counter_refuted"], "note": "For every history of safe operations on one thread, with nested containers, Any, Cell and forget. False if the program writes the public length of a flexible array or the public reference counter (undefined behaviour from safe code, both refuted)."},
{"property": "C63", "status": "partial", "theorems": ["C63_try_to_mut", "C63_exclusive", "C63_arena_refuted", "C63_arena_never"], "note": "Exact for the local and global managers; the arena never gives a mutable reference back (refuted)."},
{"property": "C64", "status": "partial", "theorems": ["C64_precise_partial", "C64_nothing_left", "C64_drop_returns", "C64_cycle_refuted", "C64_forget_refuted"], "note": "Allocated = reachable at every time, for programs without Cell and forget (both leak: refuted). Arrays and objects made of Any cannot form cycles."},
{"property": "C65", "status": "partial", "theorems": ["C65_no_bigint_partial", "C65_last_bigint_panics", "C65_bigint_refuted", "C65_inner_bigint_refuted"], "note": "False: dropping the last Any of a bigint always panics, also inside arrays and objects. Proved when no Any holds a bigint. What this means for the parser and the converter is C98."},
{"property": "C66", "status": "partial", "theorems": ["C66_packed_partial", "C66_disjoint_aligned_inside", "C66_wrap_refuted", "C66_wrap_reachable"], "note": "Packed allocation, disjointness, alignment and containment for every sequence whose addresses do not wrap; a size near 2^64 wraps the pointer and is accepted (refuted, size reachable)."},
{"property": "C67", "status": "proved", "theorems": ["C67_accounts"], "note": ""},
{"property": "C68", "status": "proved", "theorems": ["C68_align_to", "C68_field_layout_refused", "C68_field_layout", "C68_block_layout", "C68_local_layout"], "note": ""},
{"property": "C69", "status": "partial", "theorems": ["C69_items_inside", "C69_size_overflow", "C69_construct", "C69_written_header_refuted"], "note": "Sizes, positions and construction proved; the public header can be rewritten by safe code, after which the recomputed size differs (refuted)."},
{"property": "C70", "status": "partial", "theorems": ["C70_returns_partial", "C70_one_result", "C70_panic_only", "C70_run", "C70_reports", "C70_panics_refuted"], "note": "Every return is either an error with no file changed, or the serialization in the output file only. A failing write is reported and touches no other file. Missing arguments and bigints panic (refuted); C70_panic_only lists every cause of a panic, except drops of bigints, which are added in C98. Otherwise, for texts the tokenizer handles and no semicolon inside a constant, the converter returns."},
{"property": "C71", "status": "partial", "theorems": ["C71_equality", "C71_number_equality_refuted"], "note": "Equality of stored values is identity of bits. For numbers it is not the equality of the language: NaN equals itself, 0 and -0 differ (refuted)."},
{"property": "C72", "status": "partial", "theorems": ["C72_any_crosses_threads", "C72_global_refuted", "C72_global_leak_refuted", "C72_atomic", "C72_cell_partial"], "note": "False: Any of the global manager is Send and Sync but its counter is a plain Cell, so a block is released while still referenced, or never (both refuted). Proved for every schedule with the atomic counter, and for the Cell counter on undisturbed schedules."},
{"property": "C73", "status": "partial", "theorems": ["C73_string", "C73_well_formed", "C73_injective", "C73_unit_order_refuted"], "note": "Any literal and any module graph. The order of keys is by code point, not by code unit (refuted)."},
{"property": "C74", "status": "partial", "theorems": ["C74_exact_partial", "C74_one_heap", "C74_tree", "C74_convert_partial", "C74_read_back_partial", "C74_read_back_refuted", "C74_rust_partial"], "note": "Any module graph and hash order, for values without bigints, with strings and keys of the basic plane and numbers printed as decimals of at most 27 fraction digits; C74_rust_partial covers every finite number above 2^-36 in magnitude printed in the way of Rust. C74_exact_partial: with such numbers, the JSON output is read back if and only if no string or key has a surrogate. Every loaded value is the picture of one heap, and a tree if the input is JSON. Reading the output back works if input or output is JSON; it fails whenever a module is written for a value that uses a block twice (refuted)."},
{"property": "C75", "status": "partial", "theorems": ["C75_relaxed_refuted", "C75_write_refuted", "C75_acquire_release", "C75_one_counter_partial"], "note": "False: the counter is updated with Ordering::Relaxed, which orders nothing, so every release of a block that another thread touched is a data race unless references are handed back (refuted for every schedule without hand-over); so is a write after try_to_mut_ref. Proved: with acquire-release updates no schedule has a race; and the code as it is has none if one thread makes all clones, drops and conversions."},
{"property": "C76", "status": "partial", "theorems": ["C76_modify", "C76_panic_refuted"], "note": "False for panicking functions: the old value is read out, so a panic makes it be dropped twice (refuted). Proved when the function returns."},
{"property": "C77", "status": "partial", "theorems": ["C77_once", "C77_complete", "C77_leak_refuted", "C77_drop_refuted"], "note": "Proved: no item is ever dropped twice, and without a panic all are dropped. False: after a panic of the iterator the block and the items made so far leak, and so does the accounting of the local manager; after a panic of a destructor the rest leaks (both refuted)."},
{"property": "C78", "status": "partial", "theorems": ["C78_bounded_partial", "C78_checked", "C78_wrap_refuted"], "note": "Counter as a 64-bit integer. False for the atomic and the unchecked counter: after 2^64 clones that are forgotten the block is released while referenced (refuted). Proved below 2^63 clones, and for the checked counter always."},
{"property": "C79", "status": "partial", "theorems": ["C79_enough", "C79_overflow", "C79_track", "C79_track_refuted", "C79_converter_refuted"], "note": "False: the parser keeps its stack on the heap and accepts any nesting, but write_json and track_consts_for_any recurse; for every stack size there is a text of 2 n + 4 characters that is parsed and cannot be written (refuted). Exact: writing overflows iff the value is nested at least as deep as the frames."},
{"property": "C80", "status": "partial", "theorems": ["C80_counted", "C80_calls", "C80_calls_refuted", "C80_length_refuted"], "note": "False: write_consts_and_any visits children again for every reference, 2^n calls for n + 2 blocks, and a module of 27 + 14 n characters becomes JSON of more than 2^n (both refuted). Proved: the number of calls is at least the unfolding of every shared block and at most that of the whole value for each shared block; counting leaves the text unchanged."},
{"property": "C81", "status": "partial", "theorems": ["C81_redeclared_refuted", "C81_reserved_refuted"], "note": "False: every name can be declared any number of times and the latest counts; reserved words can be declared without effect (both refuted for all names)."},
{"property": "C82", "status": "partial", "theorems": ["C82_place_partial", "C82_dot_refuted", "C82_import_refuted", "C82_twice_refuted"], "note": "False: . is taken for a name. ./../m is resolved to m for every m and directory (C82_import_refuted), and one file imported as a and ./a is read twice and gives two values (C82_twice_refuted). Proved for paths without . components."},
{"property": "C83", "status": "partial", "theorems": ["C83_json_partial", "C83_json_refuted", "C83_only_json_refuted"], "note": "False: a surrogate pair escape is refused (C83_json_refuted, see C33) and negative zeros lose their sign (C35). Proved for every RFC 8259 text without surrogate escapes and negative zeros whose decimal exponents are at least -27 (below, the conversion may not return, see C27). The converse fails as well: control characters inside strings are accepted (C83_only_json_refuted)."},
{"property": "C84", "status": "partial", "theorems": ["C84_sound", "C84_exact_partial", "C84_rejected_partial", "C84_unambiguous_partial", "C84_exact_refuted", "C84_modules_sound", "C84_modules_partial", "C84_json_partial"], "note": "The soundness half has no restriction on the text: whatever is returned without error tokens follows the grammar (C84_sound, C84_modules_sound). The other half is for texts whose decimal exponents are at least -27 (calm), because the conversion of the others may not return (C27). The grammar is that of the accepted language, so it records its deviations: an exponent without digits before a terminal character, zero without its sign."},
{"property": "C85", "status": "partial", "theorems": ["C85_sound", "C85_to_f64_iff", "C85_to_f64_refuted", "C85_decimal_partial", "C85_large_refuted", "C85_least_refuted"], "note": "False at the ends of the 64-bit range. to_f64: C85_to_f64_iff gives the exact domain. Decimals: every one with exponent from 2^62 up overflows (C85_large_refuted), and the literal 0.1e-9223372036854775807 panics at once (C85_least_refuted). Proved without overflow for exponents from -27 to 2^60 and significands of at most 2^60 bits. Other theorems about numbers use the model with unbounded exponents; C85_sound: a result of the checked code is a result of that model."},
{"property": "C86", "status": "proved", "theorems": ["C86_viable", "C86_import", "C86_first"], "note": "Proved for every token sequence on which the parser returns (C45 says when it panics). Tokens that break off inside an import are the exception of C86_viable; C86_import removes it when some module can be loaded there."},
{"property": "C87", "status": "partial", "theorems": ["C87_one_system_partial", "C87_no_constants_partial", "C87_mixed_refuted"], "note": "False: const makes the parser forget the module system, so any two modules can be used one with import and one with require (C87_mixed_refuted). Proved for the part after the last const, hence for modules without constants."},
{"property": "C88", "status": "partial", "theorems": ["C88_first_refuted", "C88_next_refuted", "C88_calls_partial"], "note": "False: a call as first element of an array is rejected in every module (C88_first_refuted); so is one after a comma unless an earlier call or module.exports marks the module as CommonJS (C88_next_refuted). Proved for all other positions in the value of module.exports."},
{"property": "C89", "status": "partial", "theorems": ["C89_value", "C89_injective_partial", "C89_module", "C89_convert", "C89_again_partial"], "note": "That the text determines the value is proved for all values without bigints and any strings, if different numbers are printed differently (so not for NaNs with different payloads). The second conversion is proved for values that are read back (C53)."},
{"property": "C90", "status": "partial", "theorems": ["C90_enough", "C90_nested_refuted"], "note": "False: for every number of frames (up to 2^40) a program of 3 n + 1 steps builds nested arrays, each step needing one call, whose drop overflows (C90_nested_refuted). Proved: one frame more than the longest chain of references suffices, in every heap (C90_enough)."},
{"property": "C91", "status": "partial", "theorems": ["C91_same", "C91_modulo", "C91_congruent", "C91_finite_refuted"], "note": "False: the exponent is read modulo 2^64 (C91_modulo, for every literal and whatever the conversion), so 1e18446744073709551617 is read as 10, and every finite literal has counterparts with infinite value that read as the same number (C91_finite_refuted). Proved: where the build with checks does not panic both builds agree on every text (C91_same; the arithmetic inside the conversion is that of C85)."},
{"property": "C92", "status": "partial", "theorems": ["C92_checked", "C92_exact", "C92_overrun_refuted", "C92_layout_refuted"], "note": "False without overflow checks: for every item type that has a size some length gives a block without room for even the first item (C92_overrun_refuted, memory is overwritten from safe code); with checks there is room, or a panic (C92_checked), but layouts beyond 2^63 - 1 bytes are built unchecked (C92_layout_refuted). The lengths that fit are characterised exactly (C92_exact). Alignments up to 2^29, sizes of types below 2^61."},
{"property": "C93", "status": "partial", "theorems": ["C93_inside", "C93_null_refuted"], "note": "False: null is not tested; for every request both managers write to address 0 and go on with the items (C93_null_refuted). Proved: if a block is given, all writes are inside (C93_inside)."},
{"property": "C94", "status": "proved", "theorems": ["C94_truthful", "C94_no_circle", "C94_all_there"], "note": "Proved for all module graphs (C94_truthful); consequences for graphs without circles and for graphs that are all readable (C94_no_circle, C94_all_there). That a reachable circle never yields a value is C48."},
{"property": "C95", "status": "partial", "theorems": ["C95_silent", "C95_status_refuted", "C95_stale_refuted"], "note": "False: main drops the result of run, so every failure that run reports ends with status 0 (C95_silent, C95_status_refuted), and a failed run cannot be told from a successful one when an old output file is there (C95_stale_refuted)."},
{"property": "C96", "status": "proved", "theorems": ["C96_parse", "C96_reads", "C96_run"], "note": "Proved for values and errors (C96_parse), with the files read among the reached ones (C96_reads), and for the converter (C96_run)."},
{"property": "C97", "status": "proved", "theorems": ["C97_tokens", "C97_count", "C97_blocks", "C97_value"], "note": "Tokens: C97_tokens, C97_count. Blocks made, whatever is returned: C97_blocks; different blocks of the value: C97_value. Strings and numbers are not counted as blocks."},
{"property": "C98", "status": "partial", "theorems": ["C98_agrees", "C98_exact", "C98_errors", "C98_panics", "C98_unused_refuted", "C98_error_refuted", "C98_repeated_refuted", "C98_written_refuted", "C98_causes", "C98_parse", "C98_kept_partial"], "note": "False: the last Any of a bigint panics when it is dropped (C65), so an unused constant (C98_unused_refuted), a repeated key (C98_repeated_refuted) or an error after a bigint (C98_error_refuted) panic in the parser, and a bigint in the module cache panics after the output is written (C98_written_refuted). Exact: the converter returns without a parse error iff the model without drops does and no file that was read has a bigint literal (C98_exact). Drops add only panics (C98_agrees), and none without bigint literals (C98_panics, C98_errors). The other theorems about the parser leave drops out. C98_causes lists every way in which the parser of a file can panic by a drop: unexpected end, an error, the constants at the end of a module, a repeated key, a redeclared name. C98_kept_partial: valid texts without identifiers other than null, true and false, and without the same string twice, keep their bigints. C98_parse: whenever the parser with drops returns, the parser without drops returns the same."},
{"property": "C99", "status": "proved", "theorems": ["C99_true", "C99_no_statement", "C99_lines", "C99_reported"], "note": "Proved for all module graphs (C99_true), with consequences C99_no_statement and C99_lines. The other direction, for the first statement of a text: C99_reported. UnexpectedToken and UnexpectedEnd are described only weakly here; which tokens can go on is C86. The errors about modules are C94."}
]}
