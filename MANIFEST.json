{"claims": [
 {"property": "C01", "status": "proved", "theorems": ["C01_valid_iff_rfc8259"], "note": "all of valid.rs; both directions, all byte strings"},
 {"property": "C02", "status": "proved", "theorems": ["C02_valid_total"], "note": "no panic, no out-of-bounds, termination"},
 {"property": "C03", "status": "proved", "theorems": ["C03_unescape_escape"], "note": ""},
 {"property": "C04", "status": "proved", "theorems": ["C04_escape_is_json_string", "C04_denotes", "C04_spelling", "C04_shortest"], "note": ""},
 {"property": "C05", "status": "partial", "theorems": ["C05_unescape_rfc_refuted", "C05_unescape_rfc_partial", "C05_unescape_pair_exact", "C05_unescape_rfc_exact"], "note": "false for surrogate pairs of even planes (defect of utf16_decode); C05_unescape_rfc_exact: true of a literal if and only if all its pairs are in odd planes"},
 {"property": "C06", "status": "partial", "theorems": ["C06_unescape_utf8_refuted", "C06_unescape_utf8_partial", "C06_unescape_utf8_exact"], "note": "C06_unescape_utf8_exact: true if and only if no four bytes after backslash-u end inside a character; false when a multi-byte character follows backslash-u (defect); proved for valid literals and for literals whose backslash-u are followed by ASCII"},
 {"property": "C07", "status": "partial", "theorems": ["C07_get_refuted", "C07_get_partial", "C07_get_bytes_partial", "C07_matcher_refuted", "C07_matcher_partial", "C07_matcher_bytes_partial", "C07_matcher_exact", "C07_get_exact"], "note": "for the matcher and for get on every valid object; the exact language is proved for every pattern and all bytes (a question mark, escaped or not, is any one byte); the documented meaning is false for an escaped question mark and for ? against a multi-byte character (defects), proved otherwise"},
 {"property": "C08", "status": "partial", "theorems": ["C08_get_terminates", "C08_get_refuted", "C08_get_partial", "C08_value_get_partial"], "note": "the full claim is false (panic in a ~ query over @pretty with an escaped quote as prefix); proved for all json and all paths except those that contain, in this order, #(, @pretty:, a double quote spelled with a backslash (or backslash u), and a tilde or the escape that can stand for one; termination and absence of out-of-bounds reads for all inputs"},
 {"property": "C09", "status": "partial", "theorems": ["C09_str_refuted", "C09_accessors_partial", "C09_accessors_exact", "C09_get_partial", "C09_parse", "C09_value_get_partial", "C09_each", "C09_array"], "note": "false for non-existing values of kind String (parse of an unterminated string); proved for every other value the crate returns and shown to be false for all of these (C09_accessors_exact); also for all results of get and parse on valid documents and for all results of Value::get (paths without a backslash behind '@pretty:')"},
 {"property": "C10", "status": "proved", "theorems": ["C10_substring"], "note": "every byte string as document, every path without the bytes @ # [ {"},
 {"property": "C11", "status": "proved", "theorems": ["C11_key"], "note": ""},
 {"property": "C12", "status": "partial", "theorems": ["C12_found", "C12_found_escaped", "C12_missing_partial", "C12_missing_escaped_partial", "C12_missing_refuted"], "note": "the reachable case is proved in full, also for escaped names; absence is false in general (the search goes on inside the value of a key that lacks the next key, refuted) and proved when the inner keys occur at most once as strings; the exact result in every case is C57"},
 {"property": "C13", "status": "proved", "theorems": ["C13_index", "C13_no_index"], "note": ""},
 {"property": "C14", "status": "proved", "theorems": ["C14_count"], "note": ""},
 {"property": "C15", "status": "proved", "theorems": ["C15_each"], "note": "sub-paths made of names, indexes, patterns, # and queries joined by dots"},
 {"property": "C16", "status": "proved", "theorems": ["C16_first"], "note": "reduced to the meaning of the query on one element (C18 to C20)"},
 {"property": "C17", "status": "proved", "theorems": ["C17_all", "C17_all_each"], "note": "reduced to the meaning of the query on one element (C18 to C20)"},
 {"property": "C18", "status": "partial", "theorems": ["C18_string_partial", "C18_like_partial", "C18_not_like_partial", "C18_bare_partial", "C18_string_refuted"], "note": "exact for every quoted right-hand side that is not empty and whose text does not start with a tilde, and for unquoted ones; refuted for those two cases (#(a=\"\") compares with two quote characters, a quoted tilde starts a truth-value query); % inherits the limits of C07"},
 {"property": "C19", "status": "partial", "theorems": ["C19_number_partial", "C19_denotes", "C19_int_partial", "C19_order_partial", "C19_order_not_partial", "C19_number_refuted"], "note": "false as stated for integers above 2^53 (refuted); proved: the comparison is that of the correctly rounded binary64 values of the two decimal texts, exact for integers up to 2^53, and never contradicts the order of the numbers. Uses the axioms of Coq's real numbers"},
 {"property": "C20", "status": "proved", "theorems": ["C20_bool", "C20_exists", "C20_other", "C20_bool_le"], "note": "also: null, arrays, objects and missing values satisfy no comparison; <= and >= on booleans ignore the right-hand side"},
 {"property": "C21", "status": "proved", "theorems": ["C21_each_array", "C21_each_object", "C21_each_scalar"], "note": ""},
 {"property": "C22", "status": "proved", "theorems": ["C22_array", "C22_array_other"], "note": ""},
 {"property": "C23", "status": "proved", "theorems": ["C23_pipe", "C23_pipe_value", "C23_whole", "C23_whole_value", "C23_whole_pipe", "C23_whole_dot", "C23_modifier"], "note": "exact equality for every byte string as document, with names, patterns, hashes, queries, modifiers and multipaths before the pipe and anything after it; after a modifier or multipath the dot means the same as the pipe"},
 {"property": "C24", "status": "partial", "theorems": ["C24_dot_partial", "C24_modifier", "C24_refuted"], "note": "false in general because of the same fall-through as C12 (refuted); proved when the first key occurs once, or the path can be followed, or the first key leads to a scalar or nowhere; before a modifier or multipath the dot composes unconditionally (C24_modifier); the exact result of the dotted path in every case is C57"},
 {"property": "C25", "status": "proved", "theorems": ["C25_parse_get"], "note": "For every valid document and every path, including modifiers, multipaths and JSON lines: both lookups end alike (same panic, or the same answers from every accessor)."},
 {"property": "C26", "status": "proved", "theorems": ["C26_lines"], "note": "For every sequence of valid values with whitespace between them and every path not starting with a modifier, a multipath or another JSON lines prefix: the same outcome as the lookup in any array of these values."},
 {"property": "C27", "status": "proved", "theorems": ["C27_C28_taken", "C27_kind", "C27_C28_parse"], "note": "every value obtained by parse, get with tame paths (no @flatten, no argument of @join or @pretty), each and array"},
 {"property": "C28", "status": "proved", "theorems": ["C27_C28_taken", "C28_str", "C27_C28_parse"], "note": "every value obtained by parse, get with tame paths (no @flatten, no argument of @join or @pretty), each and array"},
 {"property": "C29", "status": "proved", "theorems": ["C29_valid"], "note": ""},
 {"property": "C30", "status": "partial", "theorems": ["C30_utf8_partial", "C30_flatten_partial", "C30_valid_partial", "C30_orderly_partial", "C30_drawn_partial", "C30_orderly_valid", "C30_refuted", "C30_valid_refuted"], "note": "false in general: refuted for a document that is not valid JSON (C30_refuted), and for a valid one with an argument of @pretty (C30_valid_refuted); proved for valid documents and all paths without an argument of @pretty, for everything handed out by chains of calls, and beyond valid documents for all texts made of closed strings, whole words and numbers set apart (orderly)"},
 {"property": "C31", "status": "proved", "theorems": ["C31_i64_number", "C31_u64_number", "C31_i64_string", "C31_u64_string", "C31_literals_exist"], "note": ""},
 {"property": "C32", "status": "partial", "theorems": ["C32_i32_refuted", "C32_i32_exact_partial", "C32_signed", "C32_unsigned"], "note": "false for i32 above 2147483647 (defect); what i32 does is characterised exactly, the other five are proved"},
 {"property": "C33", "status": "partial", "theorems": ["C33_bool_refuted", "C33_string_partial", "C33_number", "C33_number_any", "C33_other"], "note": "false for strings written with escapes (bool compares the raw text); exact characterisation by the raw text, other kinds proved"},
 {"property": "C34", "status": "partial", "theorems": ["C34_total_partial", "C34_total_exact", "C34_reflexive_partial", "C34_transitive_partial", "C34_kinds", "C34_kind_order", "C34_strings", "C34_numbers", "C34_numbers_any", "C34_others", "C34_refuted"], "note": "false (panic) for two values of kind String of which one does not exist; proved for all other values the crate returns (C34_total_exact: exactly then the comparison returns)"},
 {"property": "C35", "status": "proved", "theorems": ["C35_this", "C35_pipe_this"], "note": "a container keeps the whitespace after it, as parse does"},
 {"property": "C36", "status": "proved", "theorems": ["C36_valid"], "note": "every byte string"},
 {"property": "C37", "status": "proved", "theorems": ["C37_reverse", "C37_twice"], "note": ""},
 {"property": "C38", "status": "partial", "theorems": ["C38_flatten_partial", "C38_flatten_refuted", "C38_deep", "C38_other", "C38_default", "C38_deep_arg", "C38_text", "C38_valid_iff"], "note": "deep proved in full; one level proved unless a child array is empty with whitespace inside, where it is false (refuted: [[ ],1] gives [ ,1]); the exact text is proved for every array, and exactly when it is JSON"},
 {"property": "C39", "status": "partial", "theorems": ["C39_join", "C39_merged_names", "C39_preserve_partial", "C39_preserve_refuted", "C39_other", "C39_default", "C39_preserve_arg", "C39_preserve_text", "C39_preserve_valid_iff"], "note": "without preserve proved in full; preserve proved when no element is an empty object, where it is false (refuted: [{},{\"a\":1}]); with preserve the exact text is proved for every array, and exactly when it is JSON"},
 {"property": "C40", "status": "proved", "theorems": ["C40_ugly", "C40_ugly_valid"], "note": ""},
 {"property": "C41", "status": "proved", "theorems": ["C41_pretty_only_whitespace", "C41_pretty_same_minified"], "note": "any width, any nesting depth"},
 {"property": "C42", "status": "proved", "theorems": ["C42_sort_keys", "C42_any_depth", "C42_below", "C42_keeps", "C42_deep_refuted", "C42_sort_members", "C42_byte_order"], "note": "nesting below 500 as stated; for every nesting what is sorted is given exactly and nothing is lost; from 500 levels on not all objects are sorted (refuted without the bound)"},
 {"property": "C43", "status": "proved", "theorems": ["C43_array", "C43_array_shows", "C43_object", "C43_key_unique"], "note": "every byte string as document; sub-paths with commas, colons and brackets only in escapes and groups, names with any number of colons; includes what follows the closing bracket and the keys of unnamed entries"},
 {"property": "C44", "status": "proved", "theorems": ["C44_pretty_ignores_whitespace", "C44_pretty_of_ugly", "C44_pretty_idempotent"], "note": ""},
 {"property": "C45", "status": "proved", "theorems": ["C45_unknown", "C45_pipe_unknown"], "note": "every byte string as document"},
 {"property": "C46", "status": "proved", "theorems": ["C46_ugly_total", "C46_pretty_total"], "note": ""},
 {"property": "C47", "status": "partial", "theorems": ["C47_escaped_key_partial", "C47_escaped_key_exact", "C47_escaped_key_refuted"], "note": "exactly characterised for every name; the claim as stated is false for names with a question mark (an escaped question mark still matches any byte), proved for all other names"},
 {"property": "C48", "status": "proved", "theorems": ["C48_tilde"], "note": ""},
 {"property": "C49", "status": "proved", "theorems": ["C49_ugly", "C49_pretty", "C49_pretty_arg", "C49_ugly_doc", "C49_pretty_doc"], "note": ""},
 {"property": "C50", "status": "proved", "theorems": ["C50_f64", "C50_f64_int", "C50_reads", "C50_f64_any"], "note": "C50_f64_any covers every text in numbers and strings; the standard library's parser is modelled from its documentation"},
 {"property": "C51", "status": "proved", "theorems": ["C51_i64_int", "C51_u64_int", "C51_i64_frac", "C51_u64_frac", "C51_i64_any", "C51_u64_any"], "note": "the last two cover every text in numbers and strings"},
 {"property": "C52", "status": "proved", "theorems": ["C52_true", "C52_zero", "C52_text"], "note": "strings starting with a sign, a dot, i or n go to the standard library's parser and are left to C50 and C51"},
 {"property": "C53", "status": "proved", "theorems": ["C53_f32", "C53_f32_any"], "note": "C53_f32_any covers every text, nan included"},
 {"property": "C54", "status": "proved", "theorems": ["C54_layout", "C54_pretty"], "note": "documents nested less than 500 deep, all options; the 500th level is copied without layout, which C41 covers"},
 {"property": "C55", "status": "proved", "theorems": ["C55_valid", "C55_flatten", "C55_excluded"], "note": "C55_excluded shows that each of the exclusions is needed"},
 {"property": "C56", "status": "proved", "theorems": ["C56_whitespace", "C56_get", "C56_ugly", "C56_excluded"], "note": "C56_excluded shows that @flatten must be excluded"},
 {"property": "C57", "status": "proved", "theorems": ["C57_eval", "C57_meaning"], "note": "C57_meaning: the parameters of the specification exist except where a query panics (C08); covers the cases in which C12 and C24 are false"},
 {"property": "C58", "status": "proved", "theorems": ["C58_query"], "note": "the accessors str() and bool() of the selected value must not panic (C09)"},
 {"property": "C59", "status": "proved", "theorems": ["C59_unescape", "C59_unquoted", "C59_str"], "note": ""},
 {"property": "C60", "status": "proved", "theorems": ["C60_after", "C60_found"], "note": "elements of arrays on the way must be complete: the code returns nothing for an unterminated element"},
 {"property": "C61", "status": "proved", "theorems": ["C61_runs", "C61_lines", "C61_unique"], "note": "@flatten and @join with no argument or their documented argument, @pretty without argument; other arguments are covered by C38, C39, C49, C55"},
 {"property": "C62", "status": "proved", "theorems": ["C62_cases", "C62_empty_name", "C62_result", "C62_nothing", "C62_anything_refuted"], "note": "C62_anything_refuted shows that the empty name does select a member; a query without its own closing bracket that ends in ) or )# (such as #((a)) is still read as a query by the code and is not malformed in this sense"},
 {"property": "C63", "status": "partial", "theorems": ["C63_any_path_refuted", "C63_any_path_partial", "C63_split", "C63_split_object"], "note": "the claim is false for modifiers with an argument; proved for all paths without commas and colons outside of escapes and groups; C63_split and C63_split_object say exactly what happens at a colon; C65 says what happens for every other text"},
 {"property": "C64", "status": "proved", "theorems": ["C64_parse_again", "C64_get_text", "C64_text_decides", "C64_missing_refuted"], "note": "C64_missing_refuted shows that the condition that the value exists is needed: parse of an unclosed string has a kind but no text"},
 {"property": "C65", "status": "proved", "theorems": ["C65_reading", "C65_entries", "C65_nothing", "C65_array", "C65_object", "C65_panic"], "note": ""},
 {"property": "C66", "status": "partial", "theorems": ["C66_quoted_name_refuted", "C66_quoted_name_partial"], "note": "the claim is false: the quotes become part of the name; C66_quoted_name_partial says exactly what the name is; names with commas are covered by C65_object"},
 {"property": "C67", "status": "proved", "theorems": ["C67_total", "C67_unique", "C67_same", "C67_rest", "C67_unknown", "C67_ignored", "C67_flatten", "C67_join", "C67_pretty"], "note": ""},
 {"property": "C68", "status": "proved", "theorems": ["C68_each", "C68_matches", "C68_then", "C68_absent", "C68_after"], "note": ""},
 {"property": "C69", "status": "proved", "theorems": ["C69_piece", "C69_group", "C69_sound", "C69_unique", "C69_total", "C69_total_flatten", "C69_total_lines"], "note": ""},
 {"property": "C70", "status": "proved", "theorems": ["C70_calls", "C70_huge", "C70_order", "C70_default"], "note": ""},
 {"property": "C71", "status": "partial", "theorems": ["C71_wider_partial", "C71_wider_refuted"], "note": "false for widths from 2^63 on, which become negative in the cast to i64 (defect); proved below"},
 {"property": "C72", "status": "partial", "theorems": ["C72_f32_partial", "C72_f32_exact", "C72_f32_refuted"], "note": "not the nearest binary32 value (two roundings); proved to be one of the two around the number"},
 {"property": "C73", "status": "proved", "theorems": ["C73_idempotent", "C73_last", "C73_around", "C73_reverse", "C73_reverse_twice", "C73_reverse_space"], "note": ""},
 {"property": "C74", "status": "proved", "theorems": ["C74_array", "C74_object"], "note": ""},
 {"property": "C75", "status": "proved", "theorems": ["C75_pieces", "C75_array", "C75_each_array", "C75_each_object", "C75_parse_token", "C75_parse_bracket", "C75_parse_nothing"], "note": ""},
 {"property": "C76", "status": "proved", "theorems": ["C76_path", "C76_compare", "C76_exists", "C76_modifier", "C76_array", "C76_object", "C76_pipe", "C76_kind", "C76_scalar", "C76_string", "C76_elements", "C76_members", "C76_excluded"], "note": "The condition on paths is that no query in them can panic (C08)."},
 {"property": "C77", "status": "proved", "theorems": ["C77_path", "C77_single", "C77_compare", "C77_exists", "C77_modifier", "C77_array", "C77_object", "C77_pipe", "C77_kind", "C77_leaf", "C77_elements", "C77_members", "C77_excluded"], "note": "The condition on paths is that no query in them can panic (C08)."},
 {"property": "C78", "status": "proved", "theorems": ["C78_made", "C78_drawn", "C78_ascii", "C78_excluded"], "note": "with an escape in an option of pretty it is false (C78_excluded)"},
 {"property": "C79", "status": "proved", "theorems": ["C79_first", "C79_all", "C79_twice", "C79_order", "C79_each", "C79_dot", "C79_opposite", "C79_or_equal", "C79_neither", "C79_divide", "C79_excluded"], "note": "booleans are left out of the order: their <= and >= do not look at the right-hand side (C79_excluded, see C20)"},
 {"property": "C80", "status": "proved", "theorems": ["C80_one", "C80_get", "C80_count", "C80_each", "C80_first", "C80_all", "C80_all_each"], "note": ""},
 {"property": "C81", "status": "proved", "theorems": ["C81_ugly", "C81_ugly_settles", "C81_ugly_modifier", "C81_this", "C81_reverse_array", "C81_reverse_object", "C81_reverse_other", "C81_flatten", "C81_flatten_deep", "C81_leaves", "C81_join", "C81_fields", "C81_join_kept", "C81_other"], "note": ""},
 {"property": "C82", "status": "proved", "theorems": ["C82_blanks", "C82_parse", "C82_any_path", "C82_excluded", "C82_lines", "C82_parse_get"], "note": ""},
 {"property": "C83", "status": "proved", "theorems": ["C83_layout", "C83_once", "C83_document", "C83_repaired", "C83_nothing"], "note": ""},
 {"property": "C84", "status": "proved", "theorems": ["C84_unsorted", "C84_sorted", "C84_order", "C84_sloppy", "C84_again", "C84_once"], "note": ""},
 {"property": "C85", "status": "proved", "theorems": ["C85_passed", "C85_pipe", "C85_excluded"], "note": "C85_excluded shows that the restriction inside an entered member is needed"},
 {"property": "C86", "status": "proved", "theorems": ["C86_one", "C86_found", "C86_array", "C86_object", "C86_collected"], "note": "C86_one says that the specification gives each piece exactly one text"},
 {"property": "C87", "status": "proved", "theorems": ["C87_element", "C87_count", "C87_member", "C87_no_member", "C87_array_law", "C87_object_law", "C87_spread", "C87_blanks"], "note": "C87_blanks shows that the condition on blanks is needed"},
 {"property": "C88", "status": "proved", "theorems": ["C88_index", "C88_count", "C88_each", "C88_filter", "C88_last", "C88_member", "C88_ugly", "C88_pretty"], "note": "C88_pretty shows that the last law fails for @pretty"},
 {"property": "C89", "status": "proved", "theorems": ["C89_elements", "C89_index", "C89_count", "C89_deep_elements", "C89_deep_index", "C89_deep_count", "C89_each", "C89_filter", "C89_mixed", "C89_member", "C89_no_member"], "note": "C89_mixed shows that the law for #.path needs all elements to be arrays"},
 {"property": "C90", "status": "proved", "theorems": ["C90_int", "C90_i32_refuted", "C90_float", "C90_written", "C90_written_refuted", "C90_whole", "C90_parts", "C90_mixed", "C90_equal"], "note": "the exceptions named in the statement are C90_i32_refuted and C90_written_refuted"},
 {"property": "C91", "status": "proved", "theorems": ["C91_convert", "C91_bool", "C91_apart"], "note": ""},
 {"property": "C92", "status": "proved", "theorems": ["C92_unsigned", "C92_narrow", "C92_small", "C92_return", "C92_float", "C92_float_refuted"], "note": "C92_float_refuted is the last clause of the statement"}
]}
