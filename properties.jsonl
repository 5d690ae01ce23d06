{"id": "C01", "title": "valid() accepts exactly RFC 8259 JSON texts", "statement": "gjson::valid(s) returns true if and only if s is a JSON text in the grammar of RFC 8259 (any value type at the root, the four JSON whitespace bytes allowed around tokens). Every string that is not a JSON text is answered false.", "quantifier": "every byte string", "why_tests_cant": "the language is infinite and arbitrarily nested; tests only sample accepted and rejected strings", "anchors": ["src/valid.rs: valid, valid_any, valid_object, valid_array, valid_string, valid_number, valid_true, valid_false, valid_null, strip_ws"]}
{"id": "C02", "title": "valid() never panics and always returns", "statement": "gjson::valid returns a boolean for every input: no out-of-bounds access, no slice panic and no endless loop.", "quantifier": "every byte string", "why_tests_cant": "panic freedom of index arithmetic (16- and 32-byte blocks) must hold at every length and position", "anchors": ["src/valid.rs: valid, strip_ws, valid_string, valid_number"]}
{"id": "C03", "title": "escape then unescape is the identity", "statement": "tools::unescape(tools::escape(s)) == s for every string s.", "quantifier": "every byte string", "why_tests_cant": "an encode/decode round trip over an infinite set of strings", "anchors": ["src/util.rs: escape, extend_json_string, unescape"]}
{"id": "C04", "title": "escape() always produces a valid JSON string, in its shortest spelling", "statement": "tools::escape(s) is a JSON string literal that denotes s: valid() accepts it, and it contains no raw control character. It is spelled byte by byte: one-letter escapes, \\u00XX for the other control characters, everything else as it is. No JSON literal that denotes s is shorter.", "quantifier": "every byte string", "why_tests_cant": "must hold for every combination of bytes", "anchors": ["src/util.rs: escape, extend_json_string", "src/valid.rs: valid"]}
{"id": "C05", "title": "unescape() decodes JSON string literals as RFC 8259 says", "statement": "For a valid JSON string literal, unescape returns the text it denotes: every short escape is its character, \\uXXXX is the UTF-8 encoding of that code point, and a high/low surrogate pair is the UTF-8 encoding of the supplementary code point.", "quantifier": "every valid string literal, in particular all 1,048,576 surrogate pairs", "why_tests_cant": "tests use a handful of emoji, all from plane 1", "anchors": ["src/util.rs: unescape, utf16_is_surrogate, utf16_decode"]}
{"id": "C06", "title": "unescape() returns well-formed UTF-8", "statement": "tools::unescape, a safe function, returns a String whose bytes are well-formed UTF-8 whenever its argument is well-formed UTF-8.", "quantifier": "every well-formed UTF-8 string", "why_tests_cant": "the String is built with transmute, so one bad input among infinitely many is undefined behaviour; tests check few malformed escapes", "anchors": ["src/util.rs: unescape, tostr"]}
{"id": "C07", "title": "wildcard keys match exactly the documented glob language", "statement": "A key component containing '*' or '?' selects a member exactly when the glob matches the member name: '*' any sequence, '?' any one character, backslash-c the character c, anything else itself.", "quantifier": "every pattern and every key", "why_tests_cant": "quantifies over all pairs of pattern and string; the matcher backtracks", "anchors": ["src/util.rs: pmatch", "src/lib.rs: key_match, get_obj"]}
{"id": "C08", "title": "get() never panics and always terminates", "statement": "gjson::get(json, path) returns a Value for every json and every path, valid or not: README: 'Bad json will not panic'.", "quantifier": "every pair of byte strings", "why_tests_cant": "the input space is all pairs of strings; a fuzzer samples it", "anchors": ["src/lib.rs: get, get_obj, get_arr, proc_value, for_each, scan_squash, scan_string, query_matches", "src/path.rs: path_next, path_next_query, next_group, query_parts", "src/modifiers.rs", "src/multipath.rs"]}
{"id": "C09", "title": "accessors never panic on a returned Value", "statement": "For any Value returned by get or parse, str(), f64(), i64(), u64(), bool(), each() and array() return normally.", "quantifier": "every json, path and accessor", "why_tests_cant": "quantifies over all inputs including malformed json", "anchors": ["src/lib.rs: Value::str, Value::f64, Value::i64, Value::u64, Value::bool, parse, proc_value, scan_string"]}
{"id": "C10", "title": "results are substrings of the document", "statement": "For a path without modifiers, multipaths and '#' constructions, the json() of an existing result is a contiguous substring of the input document.", "quantifier": "every json and every such path", "why_tests_cant": "provenance of a slice for all inputs", "anchors": ["src/lib.rs: get, get_obj, get_arr_child_at_index, proc_value, json_from_slice"]}
{"id": "C11", "title": "a plain key selects the first member with that name", "statement": "On a valid object, get(json, k) for a plain key k returns exactly the text of the value of the first member whose decoded name is k, and a non-existing Value when there is none.", "quantifier": "every valid object document (any whitespace, nesting, escapes, duplicates) and every plain key", "why_tests_cant": "all documents, all keys, both the positive and the negative direction", "anchors": ["src/lib.rs: get, get_obj, key_match, proc_value, scan_squash, scan_string"]}
{"id": "C12", "title": "a dotted path resolves key by key", "statement": "On a valid document, get(json, 'k1.k2...kn') returns exactly the text of the value reached by following the keys (member names in objects, indexes in arrays), and a non-existing Value when the path cannot be followed.", "quantifier": "every valid document and every list of plain keys", "why_tests_cant": "all documents and path lengths, both directions", "anchors": ["src/lib.rs: get, get_obj, proc_value, get_arr", "src/path.rs: path_next"]}
{"id": "C13", "title": "an index selects that array element", "statement": "On a valid array, get(json, 'n') returns exactly the text of element n (0-based) and a non-existing Value when n is not smaller than the length.", "quantifier": "every valid array document and every index", "why_tests_cant": "all array lengths and contents", "anchors": ["src/lib.rs: get_arr_child_at_index, for_each"]}
{"id": "C14", "title": "'#' is the number of elements", "statement": "On a valid array, get(json, '#') is the decimal number of elements, for every array including the empty one.", "quantifier": "every valid array document", "why_tests_cant": "all arrays", "anchors": ["src/lib.rs: get_arr_count, for_each"]}
{"id": "C15", "title": "'#.path' collects the sub-results in order", "statement": "On a valid array, get(json, '#.p') is the JSON array of get(element, p) for the elements where it exists, in document order.", "quantifier": "every valid array document and every sub-path group", "why_tests_cant": "all arrays and all sub-paths", "anchors": ["src/lib.rs: get_arr_children_with_subpath", "src/path.rs: next_group"]}
{"id": "C16", "title": "'#(query)' returns the first matching element", "statement": "On a valid array, get(json, '#(lhs op rhs)') is the first element for which the comparison holds and does not exist when there is none.", "quantifier": "every valid array document and query", "why_tests_cant": "all arrays and queries", "anchors": ["src/lib.rs: get_arr_child_with_query, query_matches", "src/path.rs: query_parts, path_next_query"]}
{"id": "C17", "title": "'#(query)#' returns all matching elements", "statement": "On a valid array, get(json, '#(lhs op rhs)#') is the JSON array of exactly the matching elements, in order; with a following sub-path, of their sub-results.", "quantifier": "every valid array document and query", "why_tests_cant": "all arrays and queries", "anchors": ["src/lib.rs: get_arr_children_with_query_subpath, query_matches"]}
{"id": "C18", "title": "string queries compare decoded text", "statement": "In a query with a quoted right-hand side, a string element satisfies =, !=, <, <=, >, >= exactly when its decoded text compares so (bytewise) with the decoded right-hand side, and %, !% by glob match.", "quantifier": "every string element, operator and quoted right-hand side", "why_tests_cant": "all pairs of strings", "anchors": ["src/lib.rs: query_matches"]}
{"id": "C19", "title": "numeric queries compare numbers", "statement": "A number element satisfies a comparison with a numeric right-hand side exactly when the two numbers compare so.", "quantifier": "all numbers; in particular all integers", "why_tests_cant": "all pairs of numbers, including integers above 2^53", "anchors": ["src/lib.rs: query_matches, Value::f64, raw_to_f64"]}
{"id": "C20", "title": "boolean and existence queries", "statement": "A true/false element satisfies = and != against true/false by equality and </> with false < true; a query without operator holds exactly when its left-hand path exists.", "quantifier": "every boolean element, operator and right-hand side; every path", "why_tests_cant": "all combinations of operator, kind and right-hand side", "anchors": ["src/lib.rs: query_matches"]}
{"id": "C21", "title": "each() visits exactly the children, in order", "statement": "On a valid array or object, each() calls the callback once per element / member in document order with exactly that key and value, stops right after the callback first returns false, and calls it once with the value itself for a scalar.", "quantifier": "every valid document and every callback behaviour", "why_tests_cant": "all documents and all stopping points", "anchors": ["src/lib.rs: Value::each, for_each"]}
{"id": "C22", "title": "array() is the list of elements", "statement": "On a valid array value, array() returns exactly the elements in order; on every other kind it is empty.", "quantifier": "every valid document", "why_tests_cant": "all documents", "anchors": ["src/lib.rs: Value::array"]}
{"id": "C23", "title": "the pipe composes lookups", "statement": "get(json, 'a|b') equals get(json, 'a').get('b').", "quantifier": "every json, every first path of components, modifiers and multipaths, and every second path", "why_tests_cant": "an equation between two API calls over all inputs, valid or not", "anchors": ["src/lib.rs: get, Value::get", "src/path.rs: path_next"]}
{"id": "C24", "title": "the dot composes lookups", "statement": "get(json, 'a.b') equals get(json, 'a').get('b') for plain keys (README, Simple Parse and Get).", "quantifier": "every valid document and all plain keys a, b", "why_tests_cant": "an equation over all documents", "anchors": ["src/lib.rs: get, Value::get, get_obj, proc_value", "README.md: Simple Parse and Get"]}
{"id": "C25", "title": "parse().get(p) equals get(p)", "statement": "parse(json).get(p) and get(json, p) end alike for every valid document and path (README): the same panic, or values with the same json text, kind, string, number, boolean, elements and order.", "quantifier": "every valid document with any whitespace around it, every path (modifiers, multipaths and JSON lines included)", "why_tests_cant": "an equation over all documents and paths", "anchors": ["src/lib.rs: parse, Value::get, get"]}
{"id": "C26", "title": "JSON lines behave like an array", "statement": "For a document consisting of valid values separated by whitespace, get(json, '..' + p) equals get of the array of these values with p.", "quantifier": "every sequence of valid values separated by at least one whitespace byte, every path whose first component is not a modifier, a multipath or another JSON lines prefix", "why_tests_cant": "all documents and paths", "anchors": ["src/lib.rs: get, get_arr, for_each"]}
{"id": "C27", "title": "kind() and exists() tell the JSON type", "statement": "For a result taken from a valid document, kind() is the JSON type of the selected value, and exists() is true exactly when something was selected.", "quantifier": "every valid document, every value obtained from it by parse, get with any paths whose modifiers do not include @flatten or an argument of @join or @pretty, each and array", "why_tests_cant": "all documents and values", "anchors": ["src/lib.rs: Value::kind, Value::exists, proc_value, KINDMAP, parse"]}
{"id": "C28", "title": "str() is the decoded text", "statement": "For a value from a valid document, str() is the decoded content for strings, the raw text for numbers, arrays and objects, 'true'/'false' for booleans and empty for null.", "quantifier": "every valid document, every value obtained from it by parse, get with any paths whose modifiers do not include @flatten or an argument of @join or @pretty, each and array", "why_tests_cant": "all string contents", "anchors": ["src/lib.rs: Value::str, json_unescape_string", "src/util.rs: unescape"]}
{"id": "C29", "title": "every result on a valid document is valid JSON", "statement": "For a valid document and any path at all without modifiers, json() of the result is either empty (does not exist) or itself a valid JSON text.", "quantifier": "every valid document and every modifier-free path", "why_tests_cant": "closure of an infinite language under all paths, including malformed paths", "anchors": ["src/lib.rs: get, get_obj, get_arr*", "src/multipath.rs"]}
{"id": "C30", "title": "results are well-formed UTF-8", "statement": "For well-formed UTF-8 json and path, the &str handed out by json() is well-formed UTF-8 (it is created with from_utf8_unchecked).", "quantifier": "every pair of well-formed UTF-8 strings", "why_tests_cant": "soundness of unsafe code over all inputs; the fuzzer only samples", "anchors": ["src/util.rs: tostr", "src/lib.rs: proc_value, json_from_slice"]}
{"id": "C31", "title": "64-bit integers are read exactly", "statement": "i64() of a number literal z with -2^63 <= z < 2^63 is z, and u64() of a literal with 0 <= z < 2^64 is z (README, 64-bit integers).", "quantifier": "all 2^64 integers, in get results and quoted strings", "why_tests_cant": "2^64 values", "anchors": ["src/lib.rs: Value::i64, Value::u64, raw_to_i64, raw_to_u64"]}
{"id": "C32", "title": "narrow integer accessors saturate", "statement": "i8/i16/i32/u8/u16/u32 return the 64-bit value clamped to the range of the result type.", "quantifier": "every value", "why_tests_cant": "all 64-bit values, in particular the boundary ones", "anchors": ["src/lib.rs: Value::i8, Value::i16, Value::i32, Value::u8, Value::u16, Value::u32"]}
{"id": "C33", "title": "bool() is true exactly for truthy values", "statement": "bool() is true for true, for a number or numeric string whose i64 value is non-zero, and for the strings t, T, true, TRUE, True; false for everything else.", "quantifier": "every value", "why_tests_cant": "all texts", "anchors": ["src/lib.rs: Value::bool"]}
{"id": "C34", "title": "Value ordering is a total preorder", "statement": "For values from get/parse, cmp is reflexive, antisymmetric under reversal, transitive and total, and == is the equivalence it induces. Different kinds order Null < False < Number < String < True < Array < Object; strings order by the bytes of str(), numbers by their nearest binary64 values, other values of one kind by the bytes of json().", "quantifier": "all triples of values, including all numbers", "why_tests_cant": "triples of values; f64 comparison would break it on NaN", "anchors": ["src/lib.rs: impl Ord for Value, impl PartialEq for Value, impl Ord for Kind"]}
{"id": "C35", "title": "@this is the identity", "statement": "get(json, '@this') is the document itself (without leading whitespace), and 'p|@this' equals 'p'.", "quantifier": "every valid document", "why_tests_cant": "all documents", "anchors": ["src/modifiers.rs: exec, mod_this", "src/lib.rs: parse"]}
{"id": "C36", "title": "@valid gates on validity", "statement": "get(json, '@valid') exists exactly when valid(json) (for a json whose text is not valid, it does not exist).", "quantifier": "every byte string", "why_tests_cant": "all documents, valid or not", "anchors": ["src/modifiers.rs: mod_valid, exec"]}
{"id": "C37", "title": "@reverse reverses arrays and objects", "statement": "On a valid document, @reverse yields the array with its elements (object with its members) in reverse order, each element text unchanged; scalars are unchanged; reversing twice restores the order.", "quantifier": "every valid document", "why_tests_cant": "all documents", "anchors": ["src/modifiers.rs: mod_reverse"]}
{"id": "C38", "title": "@flatten flattens one level, deep flattens all", "statement": "On a valid array, @flatten yields the valid array obtained by splicing in the elements of the child arrays; with {\"deep\":true}, recursively; non-arrays are unchanged.", "quantifier": "every valid document", "why_tests_cant": "all nestings and whitespace", "anchors": ["src/modifiers.rs: mod_flatten, unwrap"]}
{"id": "C39", "title": "@join merges objects", "statement": "On a valid array, @join yields the valid object with the members of the object elements; each distinct name once, at its first position with its last value; with {\"preserve\":true} all members in order.", "quantifier": "every valid array", "why_tests_cant": "all arrays of objects", "anchors": ["src/modifiers.rs: mod_join, unwrap"]}
{"id": "C40", "title": "ugly removes exactly the insignificant whitespace", "statement": "tools::ugly of a valid document is the same document (same tokens, strings untouched) without any whitespace between tokens; it is valid and ugly is idempotent.", "quantifier": "every valid document", "why_tests_cant": "all documents", "anchors": ["src/pretty.rs: ugly"]}
{"id": "C41", "title": "pretty changes only whitespace", "statement": "For a valid document, any width and any whitespace prefix/indent without sort_keys, tools::ugly(pretty(json)) == tools::ugly(json), and the output is valid, also beyond the nesting limit of 500.", "quantifier": "every valid document and every such option", "why_tests_cant": "all documents, widths and depths", "anchors": ["src/pretty.rs: pretty_options, extend_pretty_any, extend_pretty_object, extend_pretty_string, extend_pretty_number, extend_tabs"]}
{"id": "C42", "title": "sort_keys sorts members and loses nothing", "statement": "With sort_keys and a whitespace prefix/indent, pretty outputs the same document with the members of every object in ascending bytewise order of their raw names, equal names in their original order. In a document nested deeper than the printer's limit nothing is lost either: only the order of members may differ from the input, and it is sorted up to the first array or object at level 500.", "quantifier": "every valid document of nesting below the printer's limit of 500; the second sentence: every valid document", "why_tests_cant": "all documents", "anchors": ["src/pretty.rs: sort_pairs, extend_pretty_object"]}
{"id": "C43", "title": "multipaths build the array/object of sub-results", "statement": "get(json, '[p1,...,pn]') is the JSON array of the json() of the existing get(json, pi) in order; '{...}' is the object of them under their (escaped) names.", "quantifier": "every json and all lists of plain sub-paths", "why_tests_cant": "all documents and path lists", "anchors": ["src/multipath.rs: exec_arr, exec_obj, each_comp, key_for_path"]}
{"id": "C44", "title": "pretty ignores the input's whitespace", "statement": "pretty(json) depends only on the tokens of a valid document, for any options; hence pretty(ugly(json)) == pretty(json), and pretty is idempotent for whitespace prefix/indent without sort_keys.", "quantifier": "every valid document and every option", "why_tests_cant": "an equation over all documents", "anchors": ["src/pretty.rs: pretty_options, extend_pretty_object"]}
{"id": "C45", "title": "unknown modifiers select nothing", "statement": "A path component '@name' with an unknown name yields a non-existing Value.", "quantifier": "every json and every unknown name", "why_tests_cant": "all names", "anchors": ["src/modifiers.rs: exec"]}
{"id": "C46", "title": "ugly and pretty never panic", "statement": "tools::ugly(s) and PrettyOptions::pretty(s) return for every string and every option.", "quantifier": "every byte string and option", "why_tests_cant": "index arithmetic and in-place buffer edits over all malformed inputs", "anchors": ["src/pretty.rs: ugly, extend_pretty_object, sort_pairs"]}
{"id": "C47", "title": "an escaped name selects the member with that name", "statement": "Writing a backslash before each special byte of a name k gives a path for which get returns the first member whose decoded name is k, and a non-existing Value when there is none.", "quantifier": "every valid object document and every name", "why_tests_cant": "all names, including names made of path syntax, and all documents", "anchors": ["src/path.rs: path_next", "src/lib.rs: key_match, get_obj", "src/util.rs: pmatch"]}
{"id": "C48", "title": "tilde queries compare truth values", "statement": "In a query with right-hand side ~true or ~false, the selected value is replaced by its bool() (false when it does not exist) and then satisfies =, ==, !=, <, > as the booleans do.", "quantifier": "every element, left-hand path, operator and truth value", "why_tests_cant": "all kinds of selected values and all left-hand paths, including missing ones", "anchors": ["src/lib.rs: query_matches, Value::bool"]}
{"id": "C49", "title": "@ugly and @pretty are ugly() and pretty_options()", "statement": "get(json, '@ugly') is the parsed output of ugly(json); get(json, '@pretty') that of pretty(json); '@pretty:arg' that of pretty_options with the fields indent, prefix, sortKeys and width of arg, absent fields having the defaults of pretty(). On a valid document @ugly gives the minimal text and @pretty a text with the same tokens.", "quantifier": "every byte string as json, every well-formed argument", "why_tests_cant": "all documents and all arguments", "anchors": ["src/modifiers.rs: exec, mod_ugly, mod_pretty"]}
{"id": "C50", "title": "f64() is the nearest double", "statement": "f64() of a number, or of a string whose text is a JSON number, is the binary64 value nearest to the decimal number written (ties to even, infinity beyond the largest), with the sign written, also for zeros; in particular integers up to 2^53 are exact. Other texts: a leading plus sign, a missing integer or fraction part, and inf, infinity and nan in any case are understood as the standard library documents; every other text is 0.", "quantifier": "every text of any length and exponent, in numbers and strings", "why_tests_cant": "infinitely many decimals; correct rounding is decided by arbitrarily late digits", "anchors": ["src/lib.rs: Value::f64, raw_to_f64"]}
{"id": "C51", "title": "i64() and u64() saturate and truncate", "statement": "i64() and u64() of an integer literal of any length is that integer clamped to the range of the type; of a number with fraction or exponent it is the nearest binary64 value without its fraction, clamped. Other texts are converted from their f64(); nan is 0.", "quantifier": "every text, in numbers and strings", "why_tests_cant": "all literals of all lengths; the fallback goes through f64 and casts", "anchors": ["src/lib.rs: Value::i64, Value::u64, raw_to_i64, raw_to_u64"]}
{"id": "C52", "title": "values that are not numbers convert to 0 or 1", "statement": "f64(), i64(), u64() of true are 1; of null, false, arrays, objects and missing values 0; of a string that does not start like a number 0.", "quantifier": "every value and every string text", "why_tests_cant": "all values of all kinds", "anchors": ["src/lib.rs: Value::f64, Value::i64, Value::u64"]}
{"id": "C53", "title": "f32() is the nearest float to f64()", "statement": "f32() is the binary32 value nearest to f64() (ties to even, infinity beyond the largest).", "quantifier": "every value, of every text", "why_tests_cant": "2^64 doubles", "anchors": ["src/lib.rs: Value::f32"]}
{"id": "C54", "title": "the layout of pretty printed documents", "statement": "pretty() writes the members of an object and the elements of an array on lines of their own, each starting with the prefix and one indentation per nesting level, names followed by a colon and a space; empty containers and arrays without objects that fit the line width stay on one line with a comma and a space between elements; the output starts with the prefix and ends with a line break.", "quantifier": "every valid document nested less than 500 deep and all options: any width, prefix, indentation and sort_keys", "why_tests_cant": "where an array is broken depends on every combination of width, nesting, prefix, indentation and name length", "anchors": ["src/pretty.rs: pretty_options, extend_pretty_object, extend_tabs"]}
{"id": "C55", "title": "modifiers keep results valid", "statement": "For a valid document and any path, modifiers included, json() of the result is either empty (does not exist) or itself a valid JSON text, as long as the path has no @flatten and no argument for @join or @pretty; with @flatten it still holds for documents in which no array has only whitespace between its brackets.", "quantifier": "every valid document and every path without @flatten, '@join:' and '@pretty:'; every document without whitespace-only arrays and every path without '@join:' and '@pretty:'", "why_tests_cant": "modifiers can stand anywhere in a path, nested in multipaths and queries, and feed each other; closure over all such paths and documents", "anchors": ["src/modifiers.rs", "src/lib.rs: get, Value::get", "src/multipath.rs"]}
{"id": "C56", "title": "whitespace of the document does not influence lookups", "statement": "Two valid documents that differ only in the whitespace between their tokens give the same answers: the same calls of parse, get, each and array, chained in any way, give values of the same existence and kind, with equal str() and json() for scalars, equal numbers and booleans from every conversion, json() of the same tokens for arrays and objects, and equally many elements and members. In particular get on ugly(json) answers as get on json. Paths are those without @flatten and without an argument for @join or @pretty.", "quantifier": "all pairs of valid documents with the same tokens, all chains of calls, all paths without @flatten, '@join:' and '@pretty:'", "why_tests_cant": "a relation between two unboundedly many inputs, closed under chaining calls; the scanners skip whitespace in many separate places and any one of them could differ", "anchors": ["src/lib.rs: get, parse, Value::{get,each,array}", "src/modifiers.rs", "src/multipath.rs", "src/pretty.rs: ugly"]}
{"id": "C57", "title": "the exact meaning of dotted paths", "statement": "On every valid document a dotted path of names, patterns, indexes, # and queries finds exactly this. In an array: an index selects that element, # counts or collects the results of the remaining path in all elements, #(q) selects the first and #(q)# all elements satisfying q. In an object: members are tried in order; the first one whose decoded name matches decides if it is the last component or its value is a scalar; if the remaining path fails inside its value (an array or object), the search goes on inside that value's text as if its members belonged to the object, ends at the first closing brace or behind the first string that is an array element, and otherwise continues with the next member. Nothing else is ever returned.", "quantifier": "all valid documents, all dotted paths of names, patterns, indexes, # and queries with balanced brackets that cannot panic; a name may be empty unless the next one is empty too (two dots at the start of a path mean JSON lines)", "why_tests_cant": "an exact specification of the result for every document and every path; the search after a failed lookup depends on duplicate names, nesting and array contents in ways no finite set of cases covers", "anchors": ["src/lib.rs: get, get_obj, get_arr, get_arr_count, get_arr_child_at_index, get_arr_child_with_query, get_arr_children_with_query_subpath, get_arr_children_with_subpath", "src/path.rs: Path::next"]}
{"id": "C58", "title": "the exact outcome of every comparison in a query", "statement": "An element satisfies the query 'lhs op rhs' exactly in these cases. A rhs between quotes loses the quotes and escapes, unless nothing is between them; any other rhs is taken as written. If the rhs then begins with a tilde, bool() of the selected value decides, whatever its kind and even if it does not exist. Otherwise the selected value must exist and be a string, number or boolean: strings are compared bytewise with the rhs (% and !% match it as a pattern), numbers are compared as the binary64 values that the number and the rhs are read as (a rhs that is no number counts as zero, nan satisfies only !=), booleans are compared with the words true and false, where <= holds for every false and >= for every true value. null, arrays and objects satisfy no comparison.", "quantifier": "all valid elements, all left-hand sides, all nine operators, all right-hand sides with balanced brackets", "why_tests_cant": "operators, kinds and forms of the right-hand side multiply, and the numbers on both sides are arbitrary decimal texts", "anchors": ["src/lib.rs: query_matches, get_arr_child_with_query, get_arr_children_with_query_subpath, raw_to_f64", "src/path.rs: Path::query_parts, path_next_query"]}
{"id": "C59", "title": "how every string literal is decoded, valid or not", "statement": "unescape of any text between two quotes returns exactly one text: ordinary characters are copied, short escapes are their characters, \\u is followed by four hex digits or a plus sign and three (anything else counts as U+FFFD), a surrogate followed by another \\u with four bytes is combined with it (a high and a low one give the character of the pair, or of the plane below for even planes; any other combination gives U+FFFD), any other surrogate gives U+FFFD; decoding ends at a control character, an unknown escape or an escape cut off by the end. A text not between two quotes gives the empty text. str() of a string value of a valid document is this text.", "quantifier": "all byte sequences; str(): all valid documents and all values obtained as in C28", "why_tests_cant": "arbitrary bytes and combinations of well-formed, malformed and truncated escapes", "anchors": ["src/util.rs: unescape, utf16_is_surrogate, utf16_decode", "src/lib.rs: Value::str"]}
{"id": "C60", "title": "what follows a document, and what follows the value found, has no influence", "statement": "get with a dotted path of names, patterns, indexes, hashes and queries finds in a valid document the same whatever text follows the document. A value is also found when the document is cut off or damaged behind it: if members and elements up to the value are well formed, the objects on the way may stay open and anything may follow; the element of an array that the path goes through must itself be complete.", "quantifier": "all valid documents, all paths of any number of components, all texts behind the document or behind the value (a number must be followed by whitespace, a comma or a closing bracket)", "why_tests_cant": "every way of damaging or continuing a document, at every depth", "anchors": ["src/lib.rs: get, get_obj, get_arr, for_each, parse_string, parse_squash, parse_number, parse_literal"]}
{"id": "C61", "title": "the meaning of whole paths: components, modifiers, multipaths, pipes, dots and JSON lines together", "statement": "The text that get returns for a whole path is the one that a set of rules derives: the rules for components, for every built-in modifier, for multipath arrays and objects (nested to any depth), for pipes and dots between them, and for JSON lines. The value returned gives every answer (exists, json, kind, str, bool, all numeric accessors, array, each, comparison) that parse of this text gives. The rules determine the text.", "quantifier": "all paths built from components, modifiers and multipaths with pipes and dots, of any length and nesting; all texts for which the rules derive a result (valid JSON at every stage that reads JSON)", "why_tests_cant": "features that work alone can interfere when combined; the number of combinations is unbounded", "anchors": ["src/lib.rs: get, Value::get, parse", "src/modifiers.rs: exec", "src/multipath.rs: exec", "src/path.rs: parse"]}
{"id": "C62", "title": "malformed queries are read as an empty name", "statement": "A component that starts with # is the hash, a query #(...) or #(...)# followed by a dot, a pipe or the end, or malformed: another character behind the hash, a missing or wrong closing bracket, or text behind the query. From a malformed component on, the whole rest of the path is ignored and get behaves as if an empty name stood there. It does not fail and does not match elements: it selects exactly the member with the empty name, and therefore a path that selects one thing finds nothing in a document without empty names.", "quantifier": "all texts that start with #; for the equality all JSON texts, valid or not, and all dotted paths before the malformed component", "why_tests_cant": "there are infinitely many ways for a path to be malformed, nested brackets and quotes included, at every depth and for every document", "anchors": ["src/path.rs: path_next, path_next_query", "src/lib.rs: get, get_obj, get_arr"]}
{"id": "C63", "title": "what can be an entry of a multipath", "statement": "Every path can be an entry of a multipath and gives there what it gives on its own. This holds for paths whose commas and colons stand in escapes or bracket groups only. It is false for a modifier with an argument ([@flatten:{\"deep\":true}]): the entry is split at its last colon outside of brackets, what stands before it is taken for the name (ignored in an array, the key of an object), and the argument is read as the path.", "quantifier": "all byte strings as document; all entries, with any number of colons, bracket groups of any depth, string literals and escapes", "why_tests_cant": "the split depends on every bracket, quote, escape, comma and colon of an entry of any length; the combination of modifiers with arguments and multipaths is not covered by the repository's tests", "anchors": ["src/multipath.rs: each_comp", "src/path.rs: path_next"]}
{"id": "C64", "title": "the text of a result is all there is to it", "statement": "A value that exists gives the same answers (kind, str, bool, all numeric accessors, array, each, comparison) as parse of its json() text, and get on it ends like get on its text. So results can be stored as text and parsed again, and two values with the same text cannot be told apart, whether they were parsed, looked up, computed by a modifier or multipath, or handed out by each or array.", "quantifier": "all values that the API can hand out, from all byte strings (valid or not) and all paths", "why_tests_cant": "a value carries hidden state (type bits, an escape flag, a cached unescaped string) set in a dozen places; a test compares it with its text for the documents and paths it tries", "anchors": ["src/lib.rs: Value, parse, get, json_from_slice, json_from_owned, proc_value", "src/modifiers.rs: exec", "src/multipath.rs: exec"]}
{"id": "C65", "title": "the exact meaning of every multipath, malformed ones included", "statement": "A path that starts with [ or { is read as a multipath. If it is not closed by its own kind of bracket, the result does not exist, whatever follows. Otherwise the text between the brackets is split at commas outside of escapes and bracket groups (quotes do not protect a comma), each entry at its last colon, a group that is not closed reaches to the end, and a backslash at the end drops the last entry. The result is the array or object of what the entries find; a dot or pipe behind it continues the path, other text behind it is ignored. It panics only if an entry does.", "quantifier": "all byte strings as document, all texts that start with a square or curly bracket", "why_tests_cant": "there are infinitely many malformed multipaths, nested to any depth; the two scanners involved disagree about quotes", "anchors": ["src/multipath.rs: each_comp, exec_arr, exec_obj", "src/path.rs: path_next_multipath", "src/lib.rs: scan_squash"]}
{"id": "C66", "title": "names in quotes in a multipath object", "statement": "In {\"name\":path}, the way the path syntax of the Go version (which the README declares to be identical) writes named entries, the member of the result is called name. This is false: the quotes become part of the name, so the member is called \"name\" with its quotes escaped. This is what happens for every name in quotes without commas and brackets.", "quantifier": "all byte strings as document, all names in quotes without commas and brackets outside of escapes, all sub-paths", "why_tests_cant": "no test of the repository uses a name in quotes; the key has to be right for every name", "anchors": ["src/multipath.rs: each_comp, exec_obj", "README.md: Path Syntax"]}
{"id": "C67", "title": "how a modifier and its argument are read off a path", "statement": "A path that starts with @ names a modifier up to the first dot, pipe or colon (a backslash hides the next byte and stays in the name). The argument after a colon is a balanced JSON-like group or string if it starts as one and is followed by a dot, a pipe or the end; if it is unclosed or followed by anything else it is the whole rest of the path; any other argument ends at the first dot or pipe. The result depends only on the name, the argument and the document, what remains of the path is applied to it, unknown names select nothing, and each modifier uses its argument only as documented.", "quantifier": "every path that starts with @, well-formed or not, and every document", "why_tests_cant": "arguments, escapes, unclosed groups and trailing text combine without bound", "anchors": ["src/path.rs: path_next", "src/modifiers.rs: exec"]}
{"id": "C68", "title": "modifiers and multipaths behind components, also for every element", "statement": "In a path like friends.#.{first,age} or #(q)#.@reverse, the part behind the dot is applied to every value the components lead to: below # and #(q)# to each element (each match) by itself, and the texts found are joined to an array, those that are empty left out; otherwise to the one value found. Where the components lead nowhere, the part behind the dot is applied to the empty text, so a multipath still yields an empty array or object.", "quantifier": "every valid document, every list of names, patterns, indexes, hashes and queries, every following path that starts with a modifier or multipath", "why_tests_cant": "paths and documents of any length and depth, and what happens at elements and members where the path fails", "anchors": ["src/lib.rs: get, get_arr, get_obj, Value::get", "src/path.rs: path_next", "src/path.rs: next_group"]}
{"id": "C69", "title": "every path has a meaning", "statement": "Every path, however malformed, is read in exactly one way: as components, modifiers and multipaths between dots and pipes, where a lone backslash at the end, brackets that are not closed or closed by the other kind, text behind a closing bracket and malformed queries have a fixed meaning. A fixed set of rules then says, piece by piece, which text the path makes of a document: names, patterns, indexes, # and queries find values or build lists; what stands behind a dot before a modifier or multipath is applied to each entry, what stands behind a pipe to the list as a whole; modifiers rewrite the text; multipaths collect the results of their entries; two dots in front take the text as JSON lines. Get never panics on such a path and returns exactly the text the rules give, which is empty or valid JSON again.", "quantifier": "every valid document (or the empty text, or JSON lines) and every byte string as a path that has no three dots in a row and none of @flatten, '@join:', '@pretty:'; with @flatten for every document without whitespace-only arrays; for all other paths whatever the rules say is still what get returns", "why_tests_cant": "all byte strings as paths, nested without bound, applied to all documents: no test suite covers the combinations of malformed pieces", "anchors": ["src/lib.rs: get, get_arr, get_obj, Value::get", "src/path.rs: path_next, next_group", "src/multipath.rs", "src/modifiers.rs"]}
{"id": "C70", "title": "PrettyOptions: the last call of each kind counts", "statement": "PrettyOptions::new() followed by any calls of width, prefix, indent and sort_keys, in any order and any number, and then pretty(json) prints the layout with the width, prefix, indentation and sorting that the last call of each kind asks for (80, \"\", two spaces and unsorted without a call). A width from 2^63 on counts as no width: no array is put on one line. On any text the output depends on nothing but what is asked for; without calls it is that of pretty(json).", "quantifier": "all chains of calls, all valid documents nested less than 500 deep (any text for the last two claims)", "why_tests_cant": "chains of calls of any length, all usize widths and all documents", "anchors": ["src/pretty.rs:29-80: PrettyOptions"]}
{"id": "C71", "title": "a wider line never makes more lines", "statement": "With the other options unchanged, pretty with a larger width never outputs more line breaks than with a smaller one. (True below 2^63; false for larger widths, which wrap to negative numbers: usize::MAX breaks arrays that 80 does not.)", "quantifier": "all valid documents nested less than 500 deep, all pairs of widths, all other options", "why_tests_cant": "compares all pairs of widths on all documents", "anchors": ["src/pretty.rs:50-53: width", "src/pretty.rs: extend_pretty_object"]}
{"id": "C72", "title": "how close f32() is to the number written", "statement": "f32() should be the binary32 value nearest to the number in the document. It is not: it rounds twice, and 1.0000000596046447753906250000001 becomes 1.0. It always is one of the two binary32 values around the number (no binary32 value lies strictly between), and exact whenever the number has a binary32 value.", "quantifier": "all numbers and strings that hold a number, any number of digits and any exponent", "why_tests_cant": "infinitely many decimal texts; the numbers that go wrong are rare", "anchors": ["src/lib.rs:234-236: f32", "src/lib.rs: f64"]}
{"id": "C73", "title": "laws of the modifiers", "statement": "On a valid document: @this, @valid, @ugly, @pretty, @join and @flatten with deep are idempotent; @this, @valid, @ugly or @pretty in front of @ugly or @pretty make no difference, also when any lookup stands between the two; three times @reverse is @reverse, and two times @reverse disappears in front of @ugly or @pretty. Each law holds for every accessor of the resulting value and with any further path behind it.", "quantifier": "all valid documents, all lookups without @flatten and without arguments of @join and @pretty, all further paths", "why_tests_cant": "equations between paths for all documents and all continuations", "anchors": ["src/modifiers.rs", "src/lib.rs: get, Value::get"]}
{"id": "C74", "title": "walking through a value and looking things up agree", "statement": "For an array taken from a valid document, get(\"#\") is the length of array(), get with an index gives a value with the same answers as that entry of array(), and nothing from the length on. For an object, get with the (escaped) name of a member gives a value with the same answers as the first value each() visits under that name, and nothing for a name that each() does not visit.", "quantifier": "all valid documents, all values reached by parse, get, each and array, all indexes below 2^63, all names without a question mark", "why_tests_cant": "relates two different walks over all documents", "anchors": ["src/lib.rs: each, array, get"]}
{"id": "C75", "title": "parse, each and array on any text", "statement": "Whatever the text, JSON or not, parse(), each() and array() take it apart in one way that is fixed by a few rules: blanks, commas and colons are passed over; a piece is a string up to its closing quote, a number with all number bytes that follow, four bytes from a t, five from an f, four from an n, or a bracket up to the one that closes it; a closing bracket, the end of the text or a byte where no piece begins ends the list. array() gives the pieces in order, each with its text, kind and place; each() on an object gives them two by two; parse() gives the first, or all from an opening bracket on.", "quantifier": "every byte string", "why_tests_cant": "all texts that are not JSON, of any length and nesting", "anchors": ["src/lib.rs: parse, each, array, for_each", "src/lib.rs: scan_number, scan_string, scan_squash"]}
{"id": "C76", "title": "The spelling of strings makes no difference", "statement": "If two JSON texts differ only in how their strings and names are escaped and in the whitespace between tokens, the same path finds the same in both, again up to spelling and whitespace: for names, patterns, indexes, hashes, comparison and existence queries, the modifiers this, valid, ugly, pretty, reverse, join and deep flatten, multipaths, and all of these joined by pipes. The values found exist alike and have the same kind; null, booleans and numbers do not differ in any accessor; strings have the same str() and the same numeric conversions; array() and each() give elements and members that agree in the same way. Exceptions, shown to be such: bool() of strings, tilde queries, shallow flatten.", "quantifier": "all pairs of JSON texts with the same content, all paths of these forms", "why_tests_cant": "every spelling of every string in documents of any size and nesting, for all paths of a grammar", "anchors": ["src/lib.rs: get, get_obj, get_arr, Value accessors", "src/util.rs: unescape", "src/modifiers.rs", "src/multipath.rs"]}
{"id": "C77", "title": "The order of members makes no difference", "statement": "If two JSON texts differ only in the order of the members of their objects (at any depth, for objects in which no name occurs twice), in how strings are escaped and in whitespace, the same path finds the same in both, again up to these differences: for names and indexes without wildcards, hashes, comparison and existence queries, the modifiers this, valid, ugly, pretty, reverse, join and deep flatten, multipaths, and all of these joined by pipes. The values found exist alike and have the same kind; those that are neither array nor object agree as in C76; array() gives elements in the same order that agree in the same way; each() visits the same members, in some order. Exceptions, shown to be such: patterns, and names that occur twice.", "quantifier": "all pairs of JSON texts that differ in this way, all paths of these forms", "why_tests_cant": "every order of the members of every object in documents of any size and nesting, for all paths of a grammar", "anchors": ["src/lib.rs: get, get_obj, get_arr, each, array", "src/modifiers.rs"]}
{"id": "C78", "title": "What results are made of", "statement": "For every byte string as document, valid JSON or not, every byte of the text of a result is an ASCII byte or occurs in the document or in the path (so nothing but the document, the path and ASCII punctuation shows up in a result), provided pretty has no argument or the path has no backslash. The same holds for all values that parse, get, each and array hand out one after the other. In particular an ASCII document and ASCII paths give ASCII, hence UTF-8, results.", "quantifier": "every byte string as document, every path without an argument of pretty or without a backslash, every chain of calls", "why_tests_cant": "no test can show that there is no document from which a foreign byte comes out", "anchors": ["src/lib.rs: get, exec_path, proc_value, parse, Value::each, Value::array", "src/modifier.rs", "src/pretty.rs: json_append"]}
{"id": "C79", "title": "Laws of queries", "statement": "In an array reached by any lookup in a valid document: #(q) finds what #(q)#|0 finds; #(q)# gives, in order, exactly the elements that satisfy q on their own; filtering twice with the same query is filtering once, and two filters can change places; #(q)#.path finds what #(q)#|#.path finds; #(q).path equals #(q)|path (for any text that does not begin like an object). The operators = and !=, < and >=, > and <=, % and !% are opposites wherever the values can be compared (= and != for strings, numbers and booleans, the order for strings and numbers that are not NaN, patterns for strings), so two such queries divide the array between them; <= is < or =, >= is > or =; null, arrays, objects and missing values satisfy neither.", "quantifier": "every valid document, every array reached in it, every query with balanced brackets (except those that can panic, C08), every path behind it", "why_tests_cant": "the laws relate the results of different queries on the same document, for all documents and queries", "anchors": ["src/lib.rs: get_arr_child_with_query, get_arr_children_with_query_subpath, get_arr_children_with_subpath, query_matches"]}
{"id": "C80", "title": "Where a path leads in a text that need not be JSON", "statement": "For every text, valid JSON or not, cut off or badly punctuated, and every path of names, indexes and patterns joined by dots, there is exactly one outcome of a search described without reference to the code (names, what separates them from their values, which values are passed over, entered, or searched on when entering was in vain), and get() returns exactly that piece of the text with its text, kind and position, or a value that does not exist. In a text that begins like an array, # counts the pieces, #.path looks the path up in each, #(q) selects the first piece that satisfies the query alone, #(q)# all of them, and #(q)#.path looks the path up in each of these.", "quantifier": "every text, every non-empty list of non-empty components (names, indexes, patterns with escapes), every balanced query", "why_tests_cant": "no number of malformed documents covers all of them; the behaviour on texts that are not JSON is what callers meet with truncated or untrusted input", "anchors": ["src/lib.rs: get, get_obj, get_arr, parse_value, key_match, for_each"]}
{"id": "C81", "title": "What the modifiers and ugly() make of a text that need not be JSON", "statement": "On every text, valid JSON or not, cut off or badly punctuated: ugly() drops exactly the blanks outside of strings and leaves its own output alone, and @ugly is parse() of that; @this is parse(); @reverse gives the pieces of a text that begins like an array in reverse order, the pairs of pieces of one that begins like an object, and otherwise what parse() finds; @flatten lays open the arrays among the pieces once, or with deep down to the pieces that are not arrays; @join puts the members of the objects among the pieces together, of those of one name the first spelling and place with the last value, or with preserve what is between the braces; @flatten and @join of any other text are parse() of it.", "quantifier": "every text, every modifier argument in the sense of S_Mod.arg_ok", "why_tests_cant": "a test shows single malformed documents; that the output of a modifier is a fixed function of the pieces of every text, without panics and without reading beyond the end, is a statement about all texts", "anchors": ["src/modifiers.rs: mod_this, mod_reverse, mod_ugly, mod_flatten, mod_join, unwrap", "src/pretty.rs: ugly", "src/lib.rs: parse, for_each"]}
{"id": "C82", "title": "Blanks in front of a text, and JSON lines, whatever the text is", "statement": "For every text, valid JSON or not: blanks in front of it move the value a path leads to by their number and change no other answer of it, and the same goes for parse(); a path that begins with a modifier or a multipath gives the same answers too, provided the blanks are JSON whitespace or the text is not JSON anyway (otherwise @valid tells them apart); a path behind two dots is looked up as if an opening bracket stood in front of the text; and looking up in the parsed value gives the same answers as looking up in the text, for every text that begins with an object or an array, closed or not.", "quantifier": "every text, every blank prefix, every path (of the named form)", "why_tests_cant": "tests show single documents; that leading blanks or the line mode influence nothing but positions, for every malformed text and every path, is a relation between two runs on all inputs", "anchors": ["src/lib.rs: get, get_start, parse, get_arr, Value::get, Value::index"]}
{"id": "C83", "title": "What pretty() makes of a text that is not JSON", "statement": "For every text in which every array and object that is opened is closed again, JSON or not: pretty() passes over whatever does not begin a value, takes commas and colons for nothing, takes a t, f or n and the three or four bytes behind it for true, false or null, and lays the tokens found this way out exactly like the document made of them; a text has only one such reading, a JSON document is read as its own tokens, and where no value begins nothing is printed.", "quantifier": "every text that has such a reading with fewer than 500 levels, every set of options", "why_tests_cant": "tests print a handful of documents; that the separators and everything between the tokens have no influence at all, for all malformed texts and options, is a statement about infinitely many pairs of texts", "anchors": ["src/pretty.rs: pretty, pretty_options, append_pretty_any, append_pretty_object, append_pretty_string, append_pretty_number"]}
{"id": "C84", "title": "What is printed tells which document it was", "statement": "Two JSON documents are printed the same by pretty() with a blank prefix and indentation if and only if their tokens are the same; with sorted keys if and only if they have the same leaves, the same elements in the same order and under every name the same values in the same order, that is if they differ at most in whitespace and in the order of members with different names. Printing sorted output again changes nothing. Texts that are not JSON follow the same rule by the tokens they are taken for.", "quantifier": "every two documents (with sorting: fewer than 500 levels), every width, every blank prefix and indentation", "why_tests_cant": "a test compares single pairs; that sorted output is a normal form, in both directions, is a statement about all pairs of documents and all options", "anchors": ["src/pretty.rs: PrettyOptions::pretty, append_pretty_any, append_pretty_object, sort_pairs"]}
{"id": "C85", "title": "What a path passes by has no influence", "statement": "Two valid documents that are the same where a dotted path goes give the same answers to get: members under names the path does not ask for, elements at other indexes, elements that do not satisfy a query, what elements have beside the path behind a hash, everything behind the member in which the rest of the path finds something, and any text behind the document may differ. The same holds for whatever follows behind a pipe. Inside a member that the path enters this presupposes that the rest of the path finds something there; otherwise the search goes on inside that member and other members of it can decide the answer.", "quantifier": "all pairs of valid documents related by passed, all dotted paths of names, patterns, indexes, hashes and queries, any text behind, any rest of the path behind a pipe", "why_tests_cant": "a test changes one unrelated member of one document; independence is a statement about all changes in all other places", "anchors": ["src/lib.rs: get, get_obj, get_arr, get_arr_children_with_subpath, get_arr_child_with_query, get_arr_children_with_query"]}
{"id": "C86", "title": "What is printed", "statement": "Printing a value found in a valid document prints nothing for null, the decoded text of a string, and every other value as it is written. The loops of the README over array() and each() print one such line for each element of an array, in order; over an object one line for each member with its decoded name in front; and after name.#.rest one line for each element in which the rest of the path finds something.", "quantifier": "all valid documents with blanks in front and any text behind, all dotted paths of names, patterns, indexes, hashes and queries", "why_tests_cant": "a test prints one document; escapes, empty containers and elements in which nothing is found combine in unboundedly many ways", "anchors": ["src/lib.rs: Display for Value, get_bytes, Value::str, Value::array, Value::each", "README.md:236-268"]}
{"id": "C87", "title": "Picking results out of a multipath", "statement": "On a valid document an index behind [p1,...,pn] picks from the results that exist, in order, # counts them, and a name behind {k1:p1,...,kn:pn} picks the first result that exists under that name; nothing is found for other indexes and names. So [p].0 and {k:p}.k can be replaced by p, alone and in front of a pipe, unless the result ends with the blanks at the end of the document; and [p1,...,pn]|#.x can be replaced by [p1|x,...,pn|x].", "quantifier": "all valid documents, all lists of entries whose paths do not use flatten or arguments for join and pretty, all dotted paths x, any rest behind a pipe", "why_tests_cant": "a test evaluates one multipath on one document; the laws relate two paths on all documents", "anchors": ["src/multipath.rs", "src/lib.rs: get, get_obj, get_arr"]}
{"id": "C88", "title": "Lookups behind a modifier", "statement": "In an array taken from a valid document, behind @reverse an index counts from the end and # is the same; collecting with #.path and filtering with #(q)# can change places with @reverse, and #(q) finds the last match. In an object a name behind @reverse finds the last member of that name. @ugly in front of a dotted path gives what @ugly behind it gives; not so for @pretty.", "quantifier": "all arrays and objects taken from valid documents by any lookups, all indexes, names, queries and dotted paths", "why_tests_cant": "a test shows one array reversed; the laws equate two paths on all documents", "anchors": ["src/modifiers.rs: mod_reverse, mod_ugly", "src/lib.rs: get, get_obj, get_arr*"]}
{"id": "C89", "title": "Lookups behind @flatten and @join", "statement": "In an array taken from a valid document, the elements of what @flatten gives are the elements with the arrays among them opened once, and an index or # behind @flatten refers to them; with deep, arrays inside arrays are opened as well. When all elements are arrays, #.path and #(q)# behind @flatten give what doing them in each of the arrays and flattening afterwards gives; not so with other elements. A name behind @join finds the last of the members of that name of all objects in the array, and nothing when there is none.", "quantifier": "all arrays taken from valid documents by any lookups, all indexes, names, queries and dotted paths", "why_tests_cant": "a test shows one array flattened or joined; the laws equate two paths, or a path and array()/each(), on all documents", "anchors": ["src/modifiers.rs: mod_flatten, mod_join", "src/lib.rs: get, get_obj, get_arr*, Value::array, Value::each"]}
{"id": "C90", "title": "The conversions of numbers keep their order", "statement": "When one number value comes before another one in the order of values, then whatever their texts are, i64(), i16(), i8(), u64(), u32(), u16() and u8() of the first are not greater than those of the second, its f64() is less and its f32() is not greater. i32() does not have this property. By the numbers written, f64() keeps the order, and i64() does not: it tells 9007199254740993 from 9007199254740993.0, which compare as equal. The integer conversions named first do keep the order of the numbers written when both are written as integers, when neither is, and when the one that is has an absolute value of at most 2^53. Numbers that compare as equal have the same f64(), and the same i64() and u64() when neither is written as an integer.", "quantifier": "all values of kind number, well-formed or not; all number texts", "why_tests_cant": "monotonicity relates all pairs of numbers; the exceptions lie at the limits of the types and where doubles are further apart than integers", "anchors": ["src/lib.rs: Ord for Value, Value::f64, f32, i64, u64, i32, i16, i8, u32, u16, u8", "src/lib.rs: raw_to_f64, raw_to_i64, raw_to_u64"]}
{"id": "C91", "title": "A number in quotes converts like the number", "statement": "A string value that decodes to some text, however it is spelled, and a number value with that text give the same f64(), f32(), i64(), i32(), i16(), i8(), u64(), u32(), u16() and u8(), whether the text is a JSON number or not. If it is a JSON number, bool() agrees as well. str() is the same for both, and yet they are not equal: the number comes before the string in the order of values.", "quantifier": "all texts, all spellings of the string, all numbers", "why_tests_cant": "it relates two values for every text and every spelling; bool() goes by the spelling of the string, so that the agreement rests on which words count as true", "anchors": ["src/lib.rs: Value::f64, f32, i64, u64, i32, i16, i8, u32, u16, u8, bool, str", "src/lib.rs: Ord for Value"]}
{"id": "C92", "title": "How the integers made of one value are related", "statement": "For a value of any kind and any text for which i64() returns, u64() returns as well and is max(0, i64()) as long as i64() is less than 2^63 - 1, and not less than i64() otherwise; u32(), u16() and u8() are i64() limited to their ranges; and if i64() is between 0 and 127, all eight integer conversions give that number. i64() returns just when u64() does. As long as i64() has at most 53 bits it is f64() without its fraction, or 0 when f64() is not a number; with more bits it need not be.", "quantifier": "all values, whatever their kinds and texts", "why_tests_cant": "the conversions parse the text separately, as i64, as u64 and as f64, and the claim is that these never disagree on any text", "anchors": ["src/lib.rs: Value::i64, u64, i32, i16, i8, u32, u16, u8", "src/lib.rs: raw_to_i64, raw_to_u64, raw_to_f64"]}
