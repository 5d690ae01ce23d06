# A machine-checked model of tidwall/gjson.rs in Rocq (Coq 8.16.1)

## 1. The model

The model is a function-by-function transliteration of `/repo/src` into total, executable
Gallina (`rocq/theories/M_*.v`); every definition cites the file and lines it follows.

* A byte is an `N`, a byte string (`&[u8]`, `&str`, `String`, `Vec<u8>`) is a `list N`.
  Theorems quantify over all such lists, a superset of the byte strings; every
  counterexample uses bytes below 256.
* `usize` indexes are `nat`; the code keeps its `(json, i)` style, so every `json[i]`,
  `&json[a..b]`, `a - b` is an explicit partial operation.
* Every function returns in the result type `R A = Ok a | Err e` with `e = EPanic` (index or
  slice out of range, subtraction underflow, unwrap on None), `EUB` (out-of-bounds
  `get_unchecked`), `EFuel` (loop fuel exhausted). "Never panics" and "terminates" are
  therefore theorems about the model, not assumptions.
* `while`/`loop` become recursion on fuel; the fuel is computed from the input by the
  function itself, and `EFuel` is proved unreachable.
* Mutation through `&mut` returns the new value; a callback with captured mutable state is a
  state-passing step function.

| file | models |
|----|----|
| `M_Base.v` | result type, indexing, slicing, byte constants |
| `M_Util.v` | util.rs: trim, unescape, utf16_decode, JSON string writing, escape, pmatch |
| `M_Num.v` | standard library: parsing of i64, u64, f64, casts, f32 (from their documentation) |
| `M_Scan.v` | lib.rs: byte class table, scan_number, scan_string, scan_squash with tok |
| `M_Value.v` | lib.rs: Value, Kind, accessors, Ord/Eq, for_each, each, array, proc_value, parse |
| `M_Path.v` | path.rs |
| `M_Valid.v` | valid.rs |
| `M_Pretty.v` | pretty.rs: ugly, pretty, the printer with given options |
| `M_Opts.v` | pretty.rs: PrettyOptions and its calls (a usize of 64 bits) |
| `M_Get.v` | lib.rs: get, get_obj, get_arr*, query_matches; modifiers.rs; multipath.rs |
| `M_Show.v` | lib.rs: Display for Value, get_bytes; the printing loops of README.md |

### Simplifications

* Element counters (`i32`, `usize`), depths and indexes are unbounded; overflowing them needs
  inputs above 2^31 bytes.
* `HashMap` in `mod_join` is an association list; `Vec::sort_by` is a stable insertion sort.
* `each_comp` collects the arguments of its callback in a list.
* A `str` is any byte list; the UTF-8 requirement of `str` is a property (C30), not a type.
* `f64`/`f32` are `spec_float` of `Coq.Floats.SpecFloat` (IEEE 754 values, computable); decimal
  to binary conversion is the correctly rounded quotient.
* `usize` to `i64` conversions in pretty.rs are in `Z`.

### Not modelled

Memory layout, lifetimes, allocation and capacity, stack depth (deep recursion can overflow
the real stack), time; `Debug` formatting, and width and fill of
formats; the module `test.rs`; `tools.rs` (re-exports).

## 2. Specifications and proofs

`S_*.v` holds the specifications: the RFC 8259 grammar and concrete syntax trees with a
`render` function, RFC string decoding, well-formed UTF-8, glob matching, order on byte
strings, the meaning of queries, document trees without whitespace, the layout of pretty
output. `P_*.v` holds lemmas. Every index function is first shown equal to a function on the
remaining input (`l = skipn i json`), for all inputs; the semantic facts are proved about
those. `Properties_*.v` holds the theorems, each with `Print Assumptions` and a concrete case.
`Tests.v` runs the model on the unit tests of the repository; nothing depends on it.

## 3. Per property: what is modelled and how it is proved

| id | title | modelled code | specification | proof | status |
|----|----|----|----|----|----|
| C01 | valid() accepts exactly RFC 8259 JSON texts | all of valid.rs | S_Json (inductive grammar of RFC 8259) | both directions, induction on fuel and on the grammar over suffixes of the input | proved |
| C02 | valid() never panics and always returns | all of valid.rs | none | corollary of the exact characterisation of every function of valid.rs | proved |
| C03 | escape then unescape is the identity | escape, unescape | none | induction on the string | proved |
| C04 | escape() always produces a valid JSON string, in its shortest spelling | escape, valid | S_Json, S_Str.{denotes,spelling} | grammar derivation by induction, then C01; byte by byte comparison with the spelling table; induction on the derivation that a literal denotes a text | proved |
| C05 | unescape() decodes JSON string literals as RFC 8259 says | unescape, utf16_decode | S_Str (RFC string decoding) | induction on the decoded literal; false for even planes | partial |
| C06 | unescape() returns well-formed UTF-8 | unescape | S_Str (UTF-8) | induction; witness for the false part | partial |
| C07 | wildcard keys match exactly the documented glob language | pmatch, key_match, get_obj | S_Str, S_Path (glob relation) | matcher equals a list function, both directions against the inductive relation | partial |
| C08 | get() never panics and always terminates | everything reachable from get | none | induction on the length of the path; invariants on path components (P_Parts, P_Ext) and on texts not beginning with an unfinished string (P_Good, P_Total) | partial |
| C09 | accessors never panic on a returned Value | accessors of Value | S_Api (values obtainable from the crate) | invariant of all returned values (P_Total, P_Reach) | partial |
| C10 | results are substrings of the document | get | S_Get | provenance invariant | proved |
| C11 | a plain key selects the first member with that name | get, get_obj | S_Json, S_Get | syntax trees, induction on the members | proved |
| C12 | a dotted path resolves key by key | same | S_Follow | induction on the path and on the tree; absence is false in general | partial |
| C13 | an index selects that array element | get_arr*, for_each | S_Get | for_each is a fold over the elements | proved |
| C14 | '#' is the number of elements | get_arr_count | S_Get | same | proved |
| C15 | '#.path' collects the sub-results in order | get_arr_children_with_subpath, next_group | S_Get, S_Path | same, with the splitting of the sub-path | proved |
| C16 | '#(query)' returns the first matching element | get_arr_child_with_query, query_parts | S_Query | same | proved |
| C17 | '#(query)#' returns all matching elements | get_arr_children_with_query_subpath | S_Query | same | proved |
| C18 | string queries compare decoded text | query_parts, query_matches | S_Query | case analysis over the parsed query | partial |
| C19 | numeric queries compare numbers | query_matches, raw_to_f64 | S_Query, S_Num | rounding is monotone (Flocq) | partial |
| C20 | boolean and existence queries | query_matches | S_Query | case analysis | proved |
| C21 | each() visits exactly the children, in order | Value::each, for_each | S_Get | for_each is a fold | proved |
| C22 | array() is the list of elements | Value::array | S_Get | same | proved |
| C23 | the pipe composes lookups | get, Path::next, mod_exec, multi_exec | S_Path, S_Compose | splitting lemma for paths, for all documents; induction over the grammar of whole paths | proved |
| C24 | the dot composes lookups | get | S_Follow | from C12 and the splitting lemma | partial |
| C25 | parse().get(p) equals get(p) | parse, Value::get, get | S_Same | simulation between the two lookups, all paths | proved |
| C26 | JSON lines behave like an array | for_each with lines | S_Same | simulation between a stream of values and an array of them | proved |
| C27 | kind() and exists() tell the JSON type | kind, exists | S_Taken | leaf lemma of proc_value | proved |
| C28 | str() is the decoded text | str | S_Taken | same | proved |
| C29 | every result on a valid document is valid JSON | get, multipath | S_Json | closure of the valid texts under lookups | proved |
| C30 | results are well-formed UTF-8 | get with all modifiers, parse, each, array | S_Str (UTF-8), S_Orderly, S_Drawn | closure invariants: valid trees, then texts made of whole strings, words and numbers; witnesses for the false part | partial |
| C31 | 64-bit integers are read exactly | i64, u64 | S_Num | decimal round trip | proved |
| C32 | narrow integer accessors saturate | i32 .. u8 | S_Num | clamping; witness for i32 | partial |
| C33 | bool() is true exactly for truthy values | bool | S_Num | case analysis | partial |
| C34 | Value ordering is a total preorder | Ord, Eq of Value and Kind | S_Api, S_Conv, S_Query | comparison of binary64 numbers is a total preorder without NaN; order on bytes | partial |
| C35 | @this is the identity | mod_this | S_Mod | direct | proved |
| C36 | @valid gates on validity | mod_valid | S_Mod | from C01 | proved |
| C37 | @reverse reverses arrays and objects | mod_reverse | S_Mod | each lemma | proved |
| C38 | @flatten flattens one level, deep flattens all | mod_flatten, unwrap | S_Mod, S_ModText | each lemma, induction on the nesting; invalidity by running the list validator over the pieces | partial |
| C39 | @join merges objects | mod_join, unwrap | S_Join, S_ModText | each lemma, association lists; invalidity by running the list validator over the pieces | partial |
| C40 | ugly removes exactly the insignificant whitespace | ugly | S_Tree | parity of backslashes, induction on the tree | proved |
| C41 | pretty changes only whitespace | pretty.rs | S_Tree | printer as a list function (P_Pretty), induction on the tree | proved |
| C42 | sort_keys sorts members and loses nothing | pretty.rs with sort_keys | S_Tree | same, sorting lemma | proved |
| C43 | multipaths build the array/object of sub-results | multipath.rs | S_Multi | splitting lemma for components | proved |
| C44 | pretty ignores the input's whitespace | pretty.rs | S_Tree | output depends on the tree only | proved |
| C45 | unknown modifiers select nothing | modifiers::exec | S_Mod | direct | proved |
| C46 | ugly and pretty never panic | pretty.rs | none | the printer equals a total list function | proved |
| C47 | an escaped name selects the member with that name | path_next, key_match | S_Path | escaping lemma for patterns | partial |
| C48 | tilde queries compare truth values | query_matches | S_Query | case analysis | proved |
| C49 | @ugly and @pretty are ugly() and pretty_options() | mod_ugly, mod_pretty | S_PrettyArg | option lookup in the argument | proved |
| C50 | f64() is the nearest double | f64, raw_to_f64 | S_Num, S_Conv | division with a sticky bit is the nearest binary64 (Flocq) | proved |
| C51 | i64() and u64() saturate and truncate | i64, u64 | S_Num, S_Conv | truncation and clamping of the rounded value | proved |
| C52 | values that are not numbers convert to 0 or 1 | f64, i64, u64 of other kinds | S_Conv | case analysis | proved |
| C53 | f32() is the nearest float to f64() | f32 | S_Conv | binary32 rounding of the binary64 value (Flocq) | proved |
| C54 | the layout of pretty printed documents | pretty.rs | S_Layout (the layout as a function of the tree) | induction on the tree, width budget | proved |
| C55 | modifiers keep results valid | modifiers.rs, get, multipath | S_Taken.tame, S_Mod.tight, S_Json | the closure argument of C29 with the modifiers as further steps: each maps a document to a document | proved |
| C56 | whitespace of the document does not influence lookups | get, parse, Value::{get,each,array}, modifiers, multipaths, ugly | S_Tree.reads, S_Alike.{taken2,same}, S_Taken.tame | a relation between the values of the two documents, kept by every list-level function: two runs in lockstep, induction on the path as in C29/C55 | proved |
| C57 | the exact meaning of dotted paths | get and everything below it for modifier-free dotted paths | S_Eval.{eval,scan,result,meaning}: a function on syntax trees; S_Str.glob, S_Follow.index_key, S_Query.q_holds | induction on the components; for objects a nested induction on the tree that follows the loop over the text of the value whose lookup failed | proved |
| C58 | the exact outcome of every comparison in a query | query_matches, query_rhs, query_compare, query_string, query_number, raw_to_f64, v_bool, v_str | S_Truth.{rhs_reads,satisfies}, S_Float.{float_text,word_text,f64_reads}: readable tables by kind and operator; S_Str.glob, real numbers | case analysis on kind and operator; inversion of the parser of floats against the grammar S_Float.float_text | proved |
| C59 | how every string literal is decoded, valid or not | unescape, utf16_is_surrogate, utf16_decode, from_str_radix, v_str | S_Decode.{code4,lone_char,pair_char,decodes,whole_u}: inductive relations on texts | soundness by induction on the relation, totality by induction on the length, both against the list form of unescape | proved |
| C60 | what follows a document, and what follows the value found, has no influence | get, get_obj, get_arr, for_each and the scanners below them | S_Eval.{eval,result,meaning}, S_Open.leads: an inductive relation between a path, the beginning of a document and the value | C57 with an arbitrary remainder; induction on leads | proved |
| C61 | the meaning of whole paths: components, modifiers, multipaths, pipes, dots and JSON lines together | get, Value::get, modifiers, multipaths, parse | S_Run.{modifies,runs,run_lines}: big-step rules on texts, put together from the specifications of C57, C35-C41, C43, C54 and C26 | induction on the derivation, using the composition theorems of C23/C24 and the theorem of each part; every accessor depends only on text, kind and string | proved |
| C62 | malformed queries are read as an empty name | path_next, path_next_query, scan_squash, get, get_obj, get_arr, next_group | S_Bad.{malformed,unclosed,ends_query,all_named,single}, S_Path.balanced, S_Eval.result | the scan for the closing bracket is inverted into balanced texts; two ends of a path that are read in the same way can be exchanged (P_Tail, a relation carried through get_arr and get_obj); then C57 with an empty last name | proved |
| C63 | what can be an entry of a multipath | multipath.rs (each_comp, comp_pair), path_next_multipath, get | S_Multi.{part,sub_path,sub_name,entry_ok} | the splitting lemma of C43, in which a colon replaces the one remembered before | partial |
| C64 | the text of a result is all there is to it | Value (all accessors), parse, get, Value::get, each, array, modifiers, multipaths | S_Api.returned, S_Same.same_answers | an invariant of every value handed out: parsing its text gives its kind, its escape flag and its unescaped text (P_Total.self_text); kept by every way to obtain a value | proved |
| C65 | the exact meaning of every multipath, malformed ones included | multipath.rs (all), path_next_multipath, scan_squash, get | S_Entry.{multi,chunk,entries}, S_Multi.entry_key | the list-level each_comp of C43 on arbitrary text; case analysis on where the brackets close | proved |
| C66 | names in quotes in a multipath object | multipath.rs (each_comp, exec_obj) | S_Multi.literal, escape | counterexample; instance of the splitting lemma of C63 | partial |
| C67 | how a modifier and its argument are read off a path | path.rs path_next; modifiers.rs exec | S_Head | a relation that reads every path starting with @, shown total and functional; the scan equals it | proved |
| C68 | modifiers and multipaths behind components, also for every element | get_obj, get_arr, next_group, Value::get | S_Then | extends the evaluator of C57 by what the part behind the dot finds; the list-level functions are shown to compute it | proved |
| C69 | every path has a meaning | get, get_obj, get_arr, path_next, next_group, multipath, modifiers, Value::get | S_Means | how a path splits is shown to be total and unique; the rules are shown sound by induction on their derivations, and to cover all paths by induction on the length of the path, with C55 for what is handed on | proved |
| C70 | PrettyOptions: the last call of each kind counts | PrettyOptions::new, width, prefix, indent, sort_keys, pretty (M_Opts) | S_Opts, S_Layout | a chain of calls keeps, for each option, what its last call says (induction on the chain); with C54 for what is printed | proved |
| C71 | a wider line never makes more lines | PrettyOptions::width, pretty | S_Opts, S_Layout | line breaks of the layout of C54 counted by induction on the tree, for any two widths; refuted for widths from 2^63 on, where the cast to i64 wraps | partial |
| C72 | how close f32() is to the number written | Value::f64, Value::f32 | S_Num | both roundings are monotone and leave binary32 values alone (Flocq); refuted as nearest by a number just above a midpoint | partial |
| C73 | laws of the modifiers | modifiers, get, Value::get | S_Laws, S_Same | the text each side makes is computed with the rules of S_Run; texts decide values by C64, whitespace does not matter by C56 | proved |
| C74 | walking through a value and looking things up agree | Value::each, Value::array, Value::get | S_Api, S_Taken | C21, C22 against C11, C13, C14, C47, values with the same text compared by C64 | proved |
| C75 | parse, each and array on any text | parse, Value::each, Value::array, for_each, the scanners | S_Rough (token, pieces) | list-level functions (P_Each) against the rules, by induction on the rules | proved |
| C76 | The spelling of strings makes no difference | get, queries, modifiers, multipaths, accessors, each, array | S_Said (content, says, same_said, blind) | C57 (evaluation on syntax trees) and an induction relating the evaluation on two trees of the same content; C58 for queries; modifier theorems C37 to C41; C65 for multipaths; C64 for accessors | proved |
| C77 | The order of members makes no difference | get, queries, modifiers, multipaths, accessors, each, array | S_Shuffle (shuffled, reordered, steady, single) | C57 (evaluation on syntax trees, including the search that goes on after a failed lookup) and an induction relating the evaluation on two shuffled trees; otherwise as C76; for @join the last value of each name is followed through the blocks of members | proved |
| C78 | What results are made of | get with all modifiers, multipaths and queries, parse, each, array | S_Drawn (drawn) | an invariant kept by every step of get (P_Keep), by every modifier (P_KeepMod) and, for classes of bytes, by all printers (P_Bytes); then an induction over the chain of calls (P_Drawn) | proved |
| C79 | Laws of queries | get with queries, pipes and sub-paths, array() | S_Filter (same_find, picks, opposite, orderable), S_Truth | from the exact results of C16, C17, C15, C13 and C23 with the list function filter; the operators from C58; the dot law from the list-level form of get for arbitrary texts | proved |
| C80 | Where a path leads in a text that need not be JSON | get, get_obj, get_arr with all their loops | S_Look (into, among, look), S_Rough (token, pieces), S_Decode, S_Str.glob | mutual induction over the search relation against the list-level forms of get_obj and get_arr; totality by induction on the components and the length of the text; uniqueness from both | proved |
| C81 | What the modifiers and ugly() make of a text that need not be JSON | mod_reverse, mod_flatten, mod_join, unwrap, ugly, parse and the iteration over elements and members | S_ModAny (bared, stretch, laid_open, leaves, fields, put), S_Rough (token, pieces), S_Look.name_of | each modifier is rewritten as a visit of the pieces found by C75; positions of pieces are shown to be increasing and inside the text; the hash map of @join is shown to hold exactly the members put so far | proved |
| C82 | Blanks in front of a text, and JSON lines, whatever the text is | get with all of its paths, parse, Value::get | S_Lead (blanks, moved, plain_path), S_Same (same_answers, same_outcome, array_path) | the list-level lookup functions of the two texts are related: equal up to a shift of the recorded index; the pretty printer is shown not to depend on the fuel | proved |
| C83 | What pretty() makes of a text that is not JSON | pretty_options with all of its helpers | S_Sloppy (sloppy: which tokens a text is taken for), S_Layout.page, S_Tree.reads | mutual induction on the reading: the list-level printer goes through the same states as the printer on token trees, which lays them out as page says | proved |
| C84 | What is printed tells which document it was | pretty_options with all of its helpers | S_Canon (alike: the same values under every name), S_Tree.reads, S_Sloppy | the layout of a tree and of its sorted version are equal; stable sorting gives equal lists exactly if the values under every name are equal; the printed text reads as the sorted tree (C42), and a text has one reading (C83) | proved |
| C85 | What a path passes by has no influence | get and everything below it | S_Frame (passed: the same where the path goes), S_Eval | the exact meaning of dotted paths (C57) takes the same value on documents related by passed, by induction on that relation; the pipe by C23 and C64 | proved |
| C86 | What is printed | Display, get_bytes, str, array, each, get | S_Show (printed, lines, printed_member), S_Decode, S_Eval | the value found is the piece of C57; str of it is its decoded text; each visits the pieces, so that the loops append one line for each | proved |
| C87 | Picking results out of a multipath | get and everything below it | S_Select (trimmed, piped, extend), S_Multi, S_Compose | the result of a multipath is the text of the array or object of the pieces found (C43, C55); looking into it depends on that text only (C64), so that C11, C13, C14, C15 say what is found there; C57 for the path behind the hash | proved |
| C88 | Lookups behind a modifier | get and everything below it | S_Filter (same_find), S_Eval, S_Mod | the text behind the modifier is the text of the reversed or minimal tree (C37, C40); lookups depend on the text only (C64); C13, C15, C17, C57 say what is found in both | proved |
| C89 | Lookups behind @flatten and @join | get and everything below it | S_Merge (opened, leaves, gathered), S_Filter (same_find), S_Eval | the text @flatten puts together is cut into pieces again (C80); the text @join gives is that of a merged object (C39), in which the last member of a name is searched; lookups depend on the text only (C64) | proved |
| C90 | The conversions of numbers keep their order | v_cmp and the conversions (M_Num, M_Value) | S_Num, S_Conv, S_Float | what is read from any text (C50, C51, C53) and the order (C34); rounding is monotone and leaves doubles as they are, so that truncation cannot pass an integer on the other side | proved |
| C91 | A number in quotes converts like the number | the conversions, bool, str and the order (M_Num, M_Value) | S_Conv.num_text, S_Get.shows | both conversions read the same text; for bool the spelled words that count as true are gone through | proved |
| C92 | How the integers made of one value are related | the conversions (M_Num, M_Value) | S_Get.clamp | by what is read from any text (C51): i64() and u64() are limits of one and the same integer | proved |

The theorems of each property and what is missing from the partial ones are in `MANIFEST.json`
and in the comments of `Properties_*.v`. A name ending in `_partial` proves less than the
statement in `properties.jsonl`; a name ending in `_refuted` proves that the full statement is
false of the model, with a witness.

## 4. Trusted base

* Coq's kernel (8.16.1), including `vm_compute`.
* The reading of the Rust source recorded in the citations of `M_*.v`, supported by
  `Tests.v` (170 of the repository's own test cases and README examples, computed on the model;
  tests that read files are left out). The Rust code was never run.
* The models of the standard library listed above.
* The definitions in `S_*.v`.
* Axioms. `Print Assumptions` says "Closed under the global context" for every theorem except
  the following, which speak about real numbers:
  `C19_int_partial`, `C19_number_partial`, `C19_order_not_partial`, `C19_order_partial`, `C34_numbers`, `C34_numbers_any`, `C50_f64`, `C50_f64_any`, `C50_f64_int`, `C50_reads`, `C51_i64_any`, `C51_i64_frac`, `C51_i64_int`, `C51_u64_any`, `C51_u64_frac`, `C51_u64_int`, `C52_true`, `C53_f32`, `C53_f32_any`, `C58_query`, `C72_f32_exact`, `C72_f32_partial`, `C72_f32_refuted`, `C76_compare`, `C77_compare`, `C79_neither`, `C79_opposite`, `C79_or_equal`, `C90_equal`, `C90_float`, `C90_int`, `C90_mixed`, `C90_parts`, `C90_whole`, `C90_written`, `C90_written_refuted`, `C92_float`, `C92_float_refuted`, `C92_narrow`, `C92_small`, `C92_unsigned`.
  These use the axioms of the standard library's real numbers,
  `ClassicalDedekindReals.sig_forall_dec`, `ClassicalDedekindReals.sig_not_dec`,
  `FunctionalExtensionality.functional_extensionality_dep` and `Classical_Prop.classic`
  (through Flocq). No axiom is added by this development.
* A whole-context listing (`coqchk -o`) also shows parameters of module types of the standard
  library that are loaded but not assumed by any theorem:
  `Coq.ssr.ssrunder.Under_rel.*`, `Coq.Reals.Rdefinitions.RbaseSymbolsImpl.*` and `RinvImpl.*`
  (the last two are the sealed definitions of the real numbers).

## 5. Wrong programs

`seeded/LOG.jsonl` records edits made to copies of the model, each a plausible bug, with the
theorems that fail. `theorems_failed` lists the theorems whose negation was proved against the
edited model, so the failure is of the statement and not only of its proof. An edit that no
theorem noticed is either listed with the theorems added because of it
(`theorems_tightened`), or has an empty `theorems_failed`.

Each row was recorded against the theorems of its time; the early rows were not run again on the
last version. Short ids were used more than once, so a later edit with an id already taken
carries a suffix (`u1`, `u1.2`, `u1.3`). Earlier versions of the log were keyed by the bare id: they
left out 49 attempts whose id had been used again, and put the `theorems_tightened` of the
first `x1` to `x6` on later edits. They also left out `k1`, which survived. All of this is put
right. No theorem is known to fail for `k1`; its note says why it is believed, but not proved,
to be unobservable.

For the last rows (`q90l` on, the second `g5` to `g11`, and `qm1` to `qm6`) only the witness was run, not the
rebuild. `qm5` and `qm6` are undecided: their witness scripts were not finished, so they show
nothing about C12 or C06 either way. C06, C12, C60 and C61 have no edit that refutes them.
