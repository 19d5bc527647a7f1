{"id": "C01", "title": "BigUint addition is exact", "statement": "For any two big unsigned integers a and b, the integer denoted by a + b is the sum of the integers denoted by a and b, whatever the lengths and carries, and it never panics.", "quantifier": "all pairs of limb vectors of any length", "why_tests_cant": "the operand space is infinite and the failures sit on carry/borrow boundaries between 64-bit limbs that random literals practically never hit", "anchors": ["nanvm-lib/src/big_numbers/big_uint.rs:Add::add"]}
{"id": "C02", "title": "BigUint subtraction saturates at zero", "statement": "For canonical a and b, a - b denotes max(0, a-b) and is canonical again.", "quantifier": "all pairs of canonical limb vectors", "why_tests_cant": "the operand space is infinite and the failures sit on carry/borrow boundaries between 64-bit limbs that random literals practically never hit", "anchors": ["nanvm-lib/src/big_numbers/big_uint.rs:Sub::sub", "nanvm-lib/src/big_numbers/big_uint.rs:normalize"]}
{"id": "C03", "title": "BigUint ordering is numeric order", "statement": "For canonical a and b, a.cmp(b) is the order of the denoted integers; in particular equal integers have equal representations.", "quantifier": "all pairs of canonical limb vectors", "why_tests_cant": "a comparison bug may need equal prefixes of arbitrary length to show", "anchors": ["nanvm-lib/src/big_numbers/big_uint.rs:Ord::cmp", "nanvm-lib/src/big_numbers/big_uint.rs:len"]}
{"id": "C04", "title": "BigUint multiplication is exact and never panics", "statement": "For any a and b, a * b denotes the product; no index goes out of bounds and no 128-bit intermediate overflows, whatever the lengths.", "quantifier": "all pairs of limb vectors of any length", "why_tests_cant": "the operand space is infinite and the failures sit on carry/borrow boundaries between 64-bit limbs that random literals practically never hit", "anchors": ["nanvm-lib/src/big_numbers/big_uint.rs:Mul::mul", "nanvm-lib/src/big_numbers/big_uint.rs:add_to_vec"]}
{"id": "C05", "title": "BigUint division is Euclidean and terminates", "statement": "For any a and non-zero b, div_mod returns q and r with a = q*b + r and r < b; it returns for every input.", "quantifier": "all pairs of canonical limb vectors with non-zero divisor", "why_tests_cant": "the estimate is wrong only for particular leading limbs, and a hang is not observable by a finished test", "anchors": ["nanvm-lib/src/big_numbers/big_uint.rs:div_mod", "nanvm-lib/src/big_numbers/big_uint.rs:Div::div"]}
{"id": "C06", "title": "BigUint left shift multiplies by a power of two", "statement": "a << n denotes a*2^n and is canonical for canonical a.", "quantifier": "all values and all one-limb shift counts", "why_tests_cant": "the operand space is infinite and the failures sit on carry/borrow boundaries between 64-bit limbs that random literals practically never hit", "anchors": ["nanvm-lib/src/big_numbers/big_uint.rs:Shl::shl"]}
{"id": "C07", "title": "BigUint right shift is floor division by a power of two", "statement": "a >> n denotes floor(a/2^n) for every shift count n.", "quantifier": "all canonical values and all shift counts", "why_tests_cant": "wrong masks only show for particular bit patterns in the next limb", "anchors": ["nanvm-lib/src/big_numbers/big_uint.rs:Shr::shr"]}
{"id": "C08", "title": "BigUint power is exact", "statement": "a.pow(n) denotes the n-th power for every one-limb n; the power loop stops.", "quantifier": "all values and all exponents below 2^64", "why_tests_cant": "the squaring loop has a different trace for every exponent", "anchors": ["nanvm-lib/src/big_numbers/big_uint.rs:pow", "nanvm-lib/src/big_numbers/big_uint.rs:pow_u64"]}
{"id": "C09", "title": "Canonical big numbers are preserved and unique", "statement": "Every value built by the public constructors and operations of BigUint is canonical (no leading zero limb), so that structural equality is numeric equality.", "quantifier": "all values reachable through the public API", "why_tests_cant": "one non-canonical producer breaks equality only in combination with another operation", "anchors": ["nanvm-lib/src/big_numbers/big_uint.rs:from_u64", "nanvm-lib/src/big_numbers/big_uint.rs:normalize", "nanvm-lib/src/big_numbers/big_uint.rs:is_zero", "nanvm-lib/src/big_numbers/big_uint.rs:is_one"]}
{"id": "C10", "title": "BigInt addition, subtraction and negation are exact", "statement": "For any signed big integers a, b: a + b, a - b and -a denote the integer sum, difference and negation.", "quantifier": "all pairs of signed limb vectors", "why_tests_cant": "sign/magnitude case splits multiply with carry behaviour", "anchors": ["nanvm-lib/src/big_numbers/big_int.rs:Add::add", "nanvm-lib/src/big_numbers/big_int.rs:Sub::sub", "nanvm-lib/src/big_numbers/big_int.rs:Neg::neg"]}
{"id": "C11", "title": "BigInt multiplication is exact", "statement": "a * b denotes the integer product, including its sign.", "quantifier": "all pairs of signed limb vectors", "why_tests_cant": "the operand space is infinite and the failures sit on carry/borrow boundaries between 64-bit limbs that random literals practically never hit", "anchors": ["nanvm-lib/src/big_numbers/big_int.rs:Mul::mul"]}
{"id": "C12", "title": "BigInt ordering is numeric order", "statement": "a.cmp(b) agrees with the order of the denoted integers, for all sign combinations.", "quantifier": "all pairs of signed limb vectors", "why_tests_cant": "order properties quantify over pairs and triples", "anchors": ["nanvm-lib/src/big_numbers/big_int.rs:Ord::cmp"]}
{"id": "C13", "title": "BigInt division identity", "statement": "div_mod(a,b) returns q, r with a = q*b + r, |r| < |b| and r zero or of the sign of a (JavaScript BigInt truncation).", "quantifier": "all pairs with non-zero divisor", "why_tests_cant": "four sign combinations times all magnitudes", "anchors": ["nanvm-lib/src/big_numbers/big_int.rs:div_mod", "nanvm-lib/src/big_numbers/big_int.rs:Div::div"]}
{"id": "C14", "title": "BigInt::from_i64 denotes its argument", "statement": "from_i64(n) denotes n for each 64-bit signed n, without panicking, and is canonical.", "quantifier": "all 2^64 arguments", "why_tests_cant": "2^64 arguments, the failing ones are isolated extremes", "anchors": ["nanvm-lib/src/big_numbers/big_int.rs:from_i64"]}
{"id": "C15", "title": "JavaScript BigInt addition, subtraction, negation are exact", "statement": "add, sub and negative return the mathematically exact integer in canonical form (zero is positive and empty).", "quantifier": "all pairs of canonical bigints", "why_tests_cant": "the operand space is infinite and the failures sit on carry/borrow boundaries between 64-bit limbs that random literals practically never hit", "anchors": ["nanvm-lib/src/js/js_bigint.rs:add", "nanvm-lib/src/js/js_bigint.rs:sub", "nanvm-lib/src/js/js_bigint.rs:negative", "nanvm-lib/src/js/js_bigint.rs:new_bigint"]}
{"id": "C16", "title": "JavaScript BigInt multiplication is exact", "statement": "mul returns the exact product in canonical form and never panics.", "quantifier": "all pairs of canonical bigints", "why_tests_cant": "the operand space is infinite and the failures sit on carry/borrow boundaries between 64-bit limbs that random literals practically never hit", "anchors": ["nanvm-lib/src/js/js_bigint.rs:mul", "nanvm-lib/src/js/js_bigint.rs:mul_vec"]}
{"id": "C17", "title": "JavaScript BigInt compare is numeric order", "statement": "compare(a,b) agrees with the numeric order of the denoted integers, hence is total, transitive and antisymmetric.", "quantifier": "all pairs of canonical bigints", "why_tests_cant": "order laws quantify over all pairs", "anchors": ["nanvm-lib/src/js/js_bigint.rs:compare", "nanvm-lib/src/js/js_bigint.rs:cmp_vec"]}
{"id": "C18", "title": "JavaScript BigInt equals is numeric equality", "statement": "equals(a,b) holds exactly when both denote the same integer.", "quantifier": "all pairs of canonical bigints", "why_tests_cant": "equality must not depend on how a value was computed", "anchors": ["nanvm-lib/src/js/js_bigint.rs:equals"]}
{"id": "C19", "title": "JavaScript BigInt not is -x-1", "statement": "not(x) denotes -x-1 and is canonical.", "quantifier": "all canonical bigints", "why_tests_cant": "the operand space is infinite and the failures sit on carry/borrow boundaries between 64-bit limbs that random literals practically never hit", "anchors": ["nanvm-lib/src/js/js_bigint.rs:not"]}
{"id": "C20", "title": "JavaScript BigInt and/or/xor are two's complement bitwise operations", "statement": "and, or, xor agree with the infinite two's complement semantics of the ECMAScript BigInt operators for every sign combination.", "quantifier": "all pairs of canonical bigints", "why_tests_cant": "failures depend on the top limb of an intermediate two's complement vector", "anchors": ["nanvm-lib/src/js/js_bigint.rs:and", "nanvm-lib/src/js/js_bigint.rs:or", "nanvm-lib/src/js/js_bigint.rs:xor", "nanvm-lib/src/js/js_bigint.rs:to_twos_complement", "nanvm-lib/src/js/js_bigint.rs:from_twos_complement"]}
{"id": "C21", "title": "JavaScript BigInt left shift", "statement": "shl(a,n) denotes a*2^n for n >= 0 and is canonical.", "quantifier": "all canonical a and one-limb n", "why_tests_cant": "the operand space is infinite and the failures sit on carry/borrow boundaries between 64-bit limbs that random literals practically never hit", "anchors": ["nanvm-lib/src/js/js_bigint.rs:shl", "nanvm-lib/src/js/js_bigint.rs:shl_on_u64"]}
{"id": "C22", "title": "JavaScript BigInt right shift is floor division", "statement": "shr(a,n) denotes floor(a / 2^n) for n >= 0, rounding to minus infinity as in ECMAScript.", "quantifier": "all canonical a and n", "why_tests_cant": "depends on the discarded bits of an arbitrary limb", "anchors": ["nanvm-lib/src/js/js_bigint.rs:shr", "nanvm-lib/src/js/js_bigint.rs:shr_on_u64"]}
{"id": "C23", "title": "JavaScript BigInt division identity and termination", "statement": "div_mod(a,b) returns truncated quotient and remainder with a = q*b + r, |r|<|b|, r zero or of the sign of a, and it terminates for every non-zero b.", "quantifier": "all pairs with non-zero divisor", "why_tests_cant": "non-termination and estimate errors need specific limb patterns", "anchors": ["nanvm-lib/src/js/js_bigint.rs:div_mod", "nanvm-lib/src/js/js_bigint.rs:sub_vec"]}
{"id": "C24", "title": "JavaScript BigInt power is exact", "statement": "pow(a,n) denotes a^n for each n >= 0; a negative exponent is an error.", "quantifier": "all canonical a and one-limb n", "why_tests_cant": "the trace differs for every exponent; special cases for 0 and +-1", "anchors": ["nanvm-lib/src/js/js_bigint.rs:pow", "nanvm-lib/src/js/js_bigint.rs:pow_u64"]}
{"id": "C25", "title": "Decimal to binary scaling brackets the exact value", "statement": "to_bin(p) returns s, e and a sticky flag such that s*2^e <= x < (s+1)*2^e for the exact decimal x, s has p bits, and the flag is set exactly when s*2^e differs from x.", "quantifier": "all decimal significands and exponents", "why_tests_cant": "an off-by-one in scaling shows for isolated significands only", "anchors": ["nanvm-lib/src/big_numbers/big_float.rs:BigFloat<10>::to_bin", "nanvm-lib/src/big_numbers/big_float.rs:increase_significand_to", "nanvm-lib/src/big_numbers/big_float.rs:decrease_significand"]}
{"id": "C26", "title": "Binary to f64 conversion is correctly rounded", "statement": "to_f64 returns the IEEE-754 binary64 nearest to the value, ties to even, gradual underflow and overflow to infinity included.", "quantifier": "all significands, exponents and sticky flags", "why_tests_cant": "rounding is decided by arbitrarily distant bits", "anchors": ["nanvm-lib/src/big_numbers/big_float.rs:get_f64_bits", "nanvm-lib/src/big_numbers/big_float.rs:get_frac_round", "nanvm-lib/src/big_numbers/big_float.rs:to_f64"]}
{"id": "C27", "title": "Decimal literals are correctly rounded", "statement": "A decimal number literal in source text produces the binary64 nearest (ties to even) to its exact mathematical value.", "quantifier": "all digit strings and exponents", "why_tests_cant": "infinitely many literals; the hard cases are near-ties", "anchors": ["nanvm-lib/src/tokenizer/mod.rs:bigfloat_to_f64", "nanvm-lib/src/tokenizer/mod.rs:tokenize", "nanvm-lib/src/big_numbers/big_float.rs:to_f64"]}
{"id": "C28", "title": "Range map lookup", "statement": "For a sorted range map, get(k) is the value of the first entry whose upper bound is >= k, or the default after the last entry.", "quantifier": "all sorted maps and all keys", "why_tests_cant": "binary search errors depend on map length and key position", "anchors": ["nanvm-lib/src/range_map.rs:get"]}
{"id": "C29", "title": "Range map merge is the pointwise union", "statement": "get(merge(a,b), k) is the union of get(a,k) and get(b,k) for every key; merge panics only if both maps give different values to one key; the result is sorted.", "quantifier": "all pairs of sorted maps and all keys", "why_tests_cant": "interleavings of boundaries are unbounded", "anchors": ["nanvm-lib/src/range_map.rs:merge", "nanvm-lib/src/range_map.rs:merge_list", "nanvm-lib/src/range_map.rs:State::union"]}
{"id": "C30", "title": "Range map ranges denote their characters", "statement": "A map built from a character range or one character returns the value exactly on that range.", "quantifier": "all character ranges", "why_tests_cant": "there are about 2^41 ranges", "anchors": ["nanvm-lib/src/range_map.rs:from_range", "nanvm-lib/src/range_map.rs:from_one"]}
{"id": "C31", "title": "Tokenizer is total", "statement": "For every character sequence the tokenizer returns a token list; it neither panics nor hangs.", "quantifier": "all finite character sequences", "why_tests_cant": "state machine with unbounded input", "anchors": ["nanvm-lib/src/tokenizer/mod.rs:tokenize", "nanvm-lib/src/tokenizer/mod.rs:TokenizerState::push", "nanvm-lib/src/tokenizer/mod.rs:TokenizerState::end"]}
{"id": "C32", "title": "String literals decode to their characters", "statement": "A string literal with escapes tokenizes to one string token with exactly the denoted characters, in any context.", "quantifier": "all strings and escape spellings", "why_tests_cant": "infinitely many strings; escape interplay", "anchors": ["nanvm-lib/src/tokenizer/mod.rs:create_string_transactions", "nanvm-lib/src/tokenizer/mod.rs:create_escape_char_transactions", "nanvm-lib/src/tokenizer/mod.rs:create_unicode_char_transactions"]}
{"id": "C33", "title": "Surrogate pair escapes denote one character", "statement": "A JSON string with an escaped surrogate pair decodes to the non-BMP character.", "quantifier": "all non-BMP characters", "why_tests_cant": "a million characters times contexts", "anchors": ["nanvm-lib/src/tokenizer/mod.rs:create_unicode_char_transactions", "nanvm-lib/src/serializer/to_json.rs:write_js_string"]}
{"id": "C34", "title": "BigInt literals are exact", "statement": "A digit string followed by n tokenizes to the integer denoted in base ten, with its sign.", "quantifier": "all digit strings", "why_tests_cant": "unbounded length", "anchors": ["nanvm-lib/src/tokenizer/mod.rs:IntegerState::add_digit", "nanvm-lib/src/tokenizer/mod.rs:IntegerState::into_token"]}
{"id": "C35", "title": "The sign of zero is preserved", "statement": "-0 and -0.0 denote negative zero.", "quantifier": "all spellings of negative zero", "why_tests_cant": "infinitely many spellings", "anchors": ["nanvm-lib/src/tokenizer/mod.rs:create_minus_transactions", "nanvm-lib/src/big_numbers/big_float.rs:float_zero"]}
{"id": "C36", "title": "Malformed numbers are rejected", "statement": "A number with an empty fraction or exponent yields an InvalidNumber error whatever follows.", "quantifier": "all malformed number prefixes and followers", "why_tests_cant": "product of prefixes and followers", "anchors": ["nanvm-lib/src/tokenizer/mod.rs:create_exp_begin_transactions", "nanvm-lib/src/tokenizer/mod.rs:create_exp_transactions", "nanvm-lib/src/tokenizer/mod.rs:create_frac_begin_transactions"]}
{"id": "C37", "title": "White space and comments do not matter", "statement": "Inserting white space or a terminated comment at a token boundary does not change the token sequence (line breaks add NewLine tokens only).", "quantifier": "all token boundaries of all texts", "why_tests_cant": "unbounded insertion points and contents", "anchors": ["nanvm-lib/src/tokenizer/mod.rs:create_initial_transitions", "nanvm-lib/src/tokenizer/mod.rs:create_comment_start_transactions"]}
{"id": "C38", "title": "Identifiers and operators tokenize as themselves", "statement": "Every identifier and punctuator yields its token, delimited by the next non-identifier character.", "quantifier": "all identifiers and contexts", "why_tests_cant": "unbounded identifiers", "anchors": ["nanvm-lib/src/tokenizer/mod.rs:create_id_transitions", "nanvm-lib/src/tokenizer/mod.rs:operator_to_token"]}
{"id": "C39", "title": "JSON grammar: accepted token sequences", "statement": "The parser accepts a token sequence in JSON mode iff it derives from the JSON grammar extended with trailing commas, and returns the denoted value.", "quantifier": "all token sequences", "why_tests_cant": "unbounded nesting", "anchors": ["nanvm-lib/src/parser/any_state.rs", "nanvm-lib/src/parser/parser.rs:parse_with_tokens", "nanvm-lib/src/parser/json_state.rs"]}
{"id": "C40", "title": "Objects: last duplicate wins, keys sorted", "statement": "A parsed object has strictly increasing keys, and every key has the value of its last occurrence.", "quantifier": "all objects", "why_tests_cant": "unbounded number of keys and duplicates", "anchors": ["nanvm-lib/src/parser/any_state.rs:push_value", "nanvm-lib/src/parser/shared.rs"]}
{"id": "C41", "title": "Errors are final and trailing tokens are rejected", "statement": "After an error the outcome never changes; after a complete value every non-newline token is an error.", "quantifier": "all token sequences", "why_tests_cant": "unbounded suffixes", "anchors": ["nanvm-lib/src/parser/json_state.rs", "nanvm-lib/src/parser/root_state.rs"]}
{"id": "C42", "title": "Line breaks inside a value are insignificant", "statement": "Inserting NewLine tokens into the token sequence of a JSON value does not change the parse result.", "quantifier": "all token sequences and insertion points", "why_tests_cant": "unbounded insertion points", "anchors": ["nanvm-lib/src/parser/any_state.rs", "nanvm-lib/src/parser/json_state.rs"]}
{"id": "C43", "title": "Constants denote their value", "statement": "A const name used in a later value denotes the value it was defined with; undefined names are rejected.", "quantifier": "all const sequences", "why_tests_cant": "unbounded number of definitions", "anchors": ["nanvm-lib/src/parser/const_state.rs", "nanvm-lib/src/parser/root_state.rs", "nanvm-lib/src/parser/shared.rs:try_id_to_any"]}
{"id": "C44", "title": "Object literals accept identifier keys in every position", "statement": "In DJS modules an identifier key is accepted in each position of an object literal.", "quantifier": "all object literals", "why_tests_cant": "positions unbounded", "anchors": ["nanvm-lib/src/parser/any_state.rs:parse_object_comma", "nanvm-lib/src/parser/any_state.rs:parse_object_begin"]}
{"id": "C45", "title": "Parser never panics", "statement": "Parsing any token sequence returns a value or an error; no unreachable!/todo! is reached.", "quantifier": "all token sequences", "why_tests_cant": "reachability over unbounded runs", "anchors": ["nanvm-lib/src/parser/any_state.rs:end_array", "nanvm-lib/src/parser/const_state.rs", "nanvm-lib/src/parser/json_state.rs"]}
{"id": "C46", "title": "Parsing terminates on every module graph", "statement": "For every finite file system, cyclic or not, parse returns; the nesting of imports is bounded by the number of files.", "quantifier": "all file systems and import graphs", "why_tests_cant": "non-termination cannot be tested", "anchors": ["nanvm-lib/src/parser/parser.rs:parse", "nanvm-lib/src/parser/parser.rs:parse_with_tokens", "nanvm-lib/src/parser/shared.rs:ModuleCache"]}
{"id": "C47", "title": "Each module is loaded at most once", "statement": "During one parse no path is read twice, and imports of one path yield the same value.", "quantifier": "all module graphs", "why_tests_cant": "unbounded graphs", "anchors": ["nanvm-lib/src/parser/parser.rs", "nanvm-lib/src/parser/const_state.rs", "nanvm-lib/src/parser/root_state.rs"]}
{"id": "C48", "title": "Circular imports are reported", "statement": "A module that (transitively) imports itself makes parse fail with CircularDependency rather than a value.", "quantifier": "all module graphs with a reachable cycle", "why_tests_cant": "cycles of any length", "anchors": ["nanvm-lib/src/parser/parser.rs", "nanvm-lib/src/parser/shared.rs:ParseError"]}
{"id": "C49", "title": "Imports are relative to the importing module", "statement": "A relative import in a module is resolved against the directory of this module.", "quantifier": "all directory layouts", "why_tests_cant": "unbounded path depth", "anchors": ["nanvm-lib/src/parser/parser.rs", "nanvm-lib/src/parser/path.rs:concat"]}
{"id": "C50", "title": "Path normalization is canonical", "statement": "normalize is idempotent, drops empty components and resolves '..' after a name; normalizing a concatenation equals resolving step by step.", "quantifier": "all paths", "why_tests_cant": "unbounded paths", "anchors": ["nanvm-lib/src/parser/path.rs:normalize", "nanvm-lib/src/parser/path.rs:concat", "nanvm-lib/src/parser/path.rs:split"]}
{"id": "C51", "title": "Absolute paths stay absolute", "statement": "The resolution of an import from a module given by an absolute path is an absolute path.", "quantifier": "all absolute paths", "why_tests_cant": "unbounded paths", "anchors": ["nanvm-lib/src/parser/path.rs:normalize"]}
{"id": "C52", "title": "A failed parse leaves the module cache usable", "statement": "After parse returns, whatever the outcome, no module remains marked as being in progress.", "quantifier": "all outcomes of all module graphs", "why_tests_cant": "states after failure at any depth", "anchors": ["nanvm-lib/src/parser/parser.rs", "nanvm-lib/src/parser/shared.rs:ModuleCache"]}
{"id": "C53", "title": "JSON round trip", "statement": "Serializing a value to JSON and parsing it again gives the same value.", "quantifier": "all JSON values", "why_tests_cant": "unbounded nesting, strings, numbers", "anchors": ["nanvm-lib/src/serializer/to_json.rs:write_json", "nanvm-lib/src/parser/parser.rs", "nanvm-lib/src/tokenizer/mod.rs:tokenize"]}
{"id": "C54", "title": "JSON output is printable ASCII", "statement": "to_json emits only characters in 0x20..0x7E for every value, and strings are escaped so that the text is a JSON text.", "quantifier": "all values", "why_tests_cant": "all of Unicode", "anchors": ["nanvm-lib/src/serializer/to_json.rs:write_js_string", "nanvm-lib/src/serializer/to_json.rs:write_json"]}
{"id": "C55", "title": "Serialization never panics", "statement": "to_json and to_djs return for every value the VM can hold.", "quantifier": "all values", "why_tests_cant": "unbounded values", "anchors": ["nanvm-lib/src/serializer/to_json.rs:write_json", "nanvm-lib/src/serializer/to_djs.rs:write_djs"]}
{"id": "C56", "title": "DJS output denotes the value", "statement": "The module written by to_djs evaluates to the original value, for any iteration order of the internal hash map.", "quantifier": "all acyclic object graphs and all hash orders", "why_tests_cant": "hash iteration order is nondeterministic", "anchors": ["nanvm-lib/src/serializer/to_djs.rs:write_consts", "nanvm-lib/src/serializer/to_djs.rs:write_compound_const", "nanvm-lib/src/serializer/to_djs.rs:write_with_const_refs", "nanvm-lib/src/serializer/to_djs.rs:write_djs"]}
{"id": "C57", "title": "DJS output shares: one constant per shared compound, no forward reference", "statement": "Each object/array that occurs at least twice is defined by exactly one const before its first use; others are not consts.", "quantifier": "all acyclic object graphs and all hash orders", "why_tests_cant": "hash iteration order is nondeterministic", "anchors": ["nanvm-lib/src/serializer/to_djs.rs:track_consts_for_any", "nanvm-lib/src/serializer/to_djs.rs:write_consts"]}
{"id": "C58", "title": "DJS output can be read back", "statement": "The text produced by to_djs is accepted by the parser and yields the same value.", "quantifier": "all values", "why_tests_cant": "unbounded values", "anchors": ["nanvm-lib/src/serializer/to_djs.rs:write_djs", "nanvm-lib/src/parser/const_state.rs", "nanvm-lib/src/parser/root_state.rs"]}
{"id": "C59", "title": "Values survive NaN-boxing", "statement": "Storing a number, boolean, null or reference in an Any and reading it back as the same type returns the stored value.", "quantifier": "all 2^64 f64 bit patterns, all pointers", "why_tests_cant": "2^64 patterns", "anchors": ["nanvm-lib/src/js/any.rs", "nanvm-lib/src/js/any_cast.rs", "nanvm-lib/src/js/bitset.rs"]}
{"id": "C60", "title": "Any has exactly one type", "statement": "Every 64-bit pattern belongs to exactly one of the type classes, and get_type agrees with the is-tests.", "quantifier": "all 2^64 patterns", "why_tests_cant": "2^64 patterns", "anchors": ["nanvm-lib/src/js/any.rs:get_type", "nanvm-lib/src/js/bitset.rs"]}
{"id": "C61", "title": "Bit subset algebra", "statement": "has/split/or/and of BitSubset64 behave as set membership, partition, superset of union and intersection.", "quantifier": "all tags, masks and values", "why_tests_cant": "2^192 combinations", "anchors": ["nanvm-lib/src/common/bit_subset64.rs"]}
{"id": "C62", "title": "Reference counting is safe", "statement": "No block is freed while a reference to it exists, none is freed twice, and it is freed when the last reference goes, for every history of clone/drop/share operations and nested containers.", "quantifier": "all operation histories and object graphs", "why_tests_cant": "unbounded histories", "anchors": ["nanvm-lib/src/mem/optional_block.rs", "nanvm-lib/src/mem/ref_.rs", "nanvm-lib/src/mem/optional_ref.rs", "nanvm-lib/src/mem/block_header.rs", "nanvm-lib/src/mem/block.rs:delete"]}
{"id": "C63", "title": "Unique ownership gives mutability", "statement": "try_to_mut_ref succeeds exactly when there is one reference to the block.", "quantifier": "all histories", "why_tests_cant": "unbounded histories", "anchors": ["nanvm-lib/src/mem/ref_.rs:try_to_mut_ref", "nanvm-lib/src/mem/mut_ref.rs"]}
{"id": "C64", "title": "No leaks", "statement": "When all references are dropped no block stays allocated.", "quantifier": "all histories of building acyclic graphs", "why_tests_cant": "unbounded histories", "anchors": ["nanvm-lib/src/mem/block.rs:delete", "nanvm-lib/src/mem/local.rs"]}
{"id": "C65", "title": "Dropping any value is safe", "statement": "Dropping the last Any that owns a value never panics, whatever its type.", "quantifier": "all values", "why_tests_cant": "all types times nesting", "anchors": ["nanvm-lib/src/js/any_internal.rs:delete"]}
{"id": "C66", "title": "Arena blocks are disjoint, aligned and inside the arena", "statement": "For every sequence of allocations, the blocks returned are pairwise disjoint, aligned and inside the buffer; when there is no room the arena panics.", "quantifier": "all allocation sequences and arena bounds", "why_tests_cant": "unbounded sequences, pointer arithmetic", "anchors": ["nanvm-lib/src/mem/arena.rs"]}
{"id": "C67", "title": "Local manager accounting", "statement": "At all times the counter and size of the local manager equal the number and total size of live blocks.", "quantifier": "all allocation/deallocation histories", "why_tests_cant": "unbounded histories", "anchors": ["nanvm-lib/src/mem/local.rs"]}
{"id": "C68", "title": "Layout rounding", "statement": "Field layouts round up to the least multiple of the alignment, so header and object are aligned and do not overlap.", "quantifier": "all sizes and power-of-two alignments", "why_tests_cant": "2^64 sizes", "anchors": ["nanvm-lib/src/mem/field_layout.rs", "nanvm-lib/src/mem/block.rs"]}
{"id": "C69", "title": "Flexible arrays: layout is consistent", "statement": "The size used to allocate a flexible array equals the size recomputed for its release, and each item lies inside the block and aligned.", "quantifier": "all headers, item sizes and lengths", "why_tests_cant": "unbounded lengths", "anchors": ["nanvm-lib/src/mem/flexible_array/mod.rs", "nanvm-lib/src/mem/flexible_array/constructor.rs"]}
{"id": "C70", "title": "Command line: nothing is written on failure", "statement": "If the input does not parse or an extension is unknown, the output file is not touched; otherwise it holds the serialization of the parsed value.", "quantifier": "all inputs, paths and file systems", "why_tests_cant": "all inputs", "anchors": ["nanvm-lib/src/app/mod.rs:run", "nanvm-lib/src/app/mod.rs:file_to_data_type"]}
{"id": "C71", "title": "Equality of stored values", "statement": "Two stored values compare equal exactly when they are the same value of the same type (for references: the same block); for numbers this agrees with the language's equality.", "quantifier": "all pairs of stored values", "why_tests_cant": "2^128 pairs of bit patterns", "anchors": ["nanvm-lib/src/js/any.rs", "nanvm-lib/src/js/any_internal.rs"]}
{"id": "C72", "title": "References shared by threads are counted right", "statement": "Whatever references the type system lets several threads hold, a block is released exactly when the last of them is dropped, and never used after that.", "quantifier": "all numbers of threads and all interleavings of clone, drop and exclusive access", "why_tests_cant": "data races depend on the scheduler", "anchors": ["nanvm-lib/src/mem/block_header.rs", "nanvm-lib/src/mem/global.rs", "nanvm-lib/src/mem/local.rs", "nanvm-lib/src/js/any.rs"]}
{"id": "C73", "title": "Strings keep their text", "statement": "A loaded string (value or key) is the UTF-16 encoding of the text the source denotes: decoding it gives this text and no other; different texts give different strings.", "quantifier": "all string literals, all of Unicode, all module graphs", "why_tests_cant": "all of Unicode, unbounded strings", "anchors": ["nanvm-lib/src/parser/shared.rs:to_js_string", "nanvm-lib/src/parser/any_state.rs", "nanvm-lib/src/tokenizer/mod.rs:tokenize", "nanvm-lib/src/js/js_string.rs"]}
{"id": "C74", "title": "Converting a file keeps its value", "statement": "If the input file, with the modules it imports, denotes a value, then running the converter writes an output file that denotes the same value in the dialect that its name asks for, leaves other files alone, and the converter can read the output again.", "quantifier": "all file systems, module graphs, values, output names and hash orders", "why_tests_cant": "module graphs, values and hash orders are unbounded; needs parser and serializer together", "anchors": ["nanvm-lib/src/app/mod.rs:run", "nanvm-lib/src/parser/parser.rs:parse", "nanvm-lib/src/serializer/to_json.rs:to_json", "nanvm-lib/src/serializer/to_djs.rs:to_djs"]}
{"id": "C75", "title": "Releasing a shared block is ordered after its uses", "statement": "When several threads share a block through an atomic counter, the release of the block, and every write through an exclusive reference, is ordered (happens-before) after all accesses of the other threads: there is no data race.", "quantifier": "all numbers of threads and all schedules of use, clone, drop, conversion and hand-over", "why_tests_cant": "weak memory: the hardware of a test machine may order what the program does not", "anchors": ["nanvm-lib/src/mem/block_header.rs", "nanvm-lib/src/mem/optional_ref.rs", "nanvm-lib/src/mem/ref_.rs:try_to_mut_ref", "nanvm-lib/src/mem/mut_ref.rs"]}
{"id": "C76", "title": "A mutable reference survives a panic", "statement": "Modifying a value in place through a function either replaces it or, if the function panics, leaves the program in a state where every value is dropped at most once.", "quantifier": "all values and all functions, returning or panicking", "why_tests_cant": "unwinding at every point of user code", "anchors": ["nanvm-lib/src/common/ref_mut.rs:modify"]}
{"id": "C77", "title": "A panic while an array is built or dropped", "statement": "If the iterator or a destructor panics while a flexible array is built or released, every item made so far is dropped exactly once and the block is released.", "quantifier": "all lengths, all points of the panic", "why_tests_cant": "the panic may come at any item", "anchors": ["nanvm-lib/src/mem/manager.rs:new", "nanvm-lib/src/mem/flexible_array/constructor.rs:construct", "nanvm-lib/src/mem/block.rs:delete", "nanvm-lib/src/mem/flexible_array/mod.rs:object_drop"]}
{"id": "C78", "title": "The reference counter does not overflow", "statement": "Whatever the number of clones, also of references that are never dropped, a block is not released while it is referenced.", "quantifier": "all histories of clone, drop and forget", "why_tests_cant": "needs 2^64 operations", "anchors": ["nanvm-lib/src/mem/block_header.rs:ref_counter_update", "nanvm-lib/src/mem/optional_ref.rs", "nanvm-lib/src/mem/ref_.rs:try_to_mut_ref"]}
{"id": "C79", "title": "Deeply nested values do not exhaust the stack", "statement": "A value that the parser accepts can be written, however deep it is nested: recursion does not follow the nesting.", "quantifier": "all stack sizes, all nesting depths", "why_tests_cant": "stack sizes differ between machines; nesting is unbounded", "anchors": ["nanvm-lib/src/serializer/to_json.rs:write_json", "nanvm-lib/src/serializer/to_djs.rs:track_consts_for_any", "nanvm-lib/src/parser/parser.rs:parse"]}
{"id": "C80", "title": "Work and output are bounded by the size of the value", "statement": "Writing a value takes work in proportion to its blocks, and the converter writes output in proportion to its input.", "quantifier": "all object graphs, hash orders and module texts", "why_tests_cant": "needs growing families of inputs", "anchors": ["nanvm-lib/src/serializer/to_djs.rs:write_consts_and_any", "nanvm-lib/src/serializer/to_djs.rs:write_compound_const", "nanvm-lib/src/serializer/to_json.rs:write_json", "nanvm-lib/src/app/mod.rs:run"]}
{"id": "C81", "title": "Names are declared once", "statement": "A module that declares one name twice, or declares a reserved word, is rejected, as JavaScript rejects it.", "quantifier": "all modules and names", "why_tests_cant": "all combinations of names and declarations", "anchors": ["nanvm-lib/src/parser/const_state.rs", "nanvm-lib/src/parser/root_state.rs"]}
{"id": "C82", "title": "Resolving a path keeps the file it names", "statement": "In a file system a component . stays in its directory. The path of an import, joined to a directory and normalized, names the same file as the joined path itself; in particular ./../m names a file of the directory above, and a module imported under two names of the same file is read once.", "quantifier": "all paths of any length, all directories, all module graphs over file systems that ignore . components", "why_tests_cant": "paths with . are unbounded and the tests only use paths without it", "anchors": ["nanvm-lib/src/parser/path.rs:concat", "nanvm-lib/src/parser/path.rs:normalize", "nanvm-lib/src/parser/parser.rs:parse"]}
{"id": "C83", "title": "JSON texts are read with their value", "statement": "Every JSON text (RFC 8259: any white space, escapes, number forms, nesting) is read as JSON, with the value that it denotes; numbers are the nearest doubles.", "quantifier": "all JSON texts of any length and layout", "why_tests_cant": "the language is infinite and the tests try a few texts", "anchors": ["nanvm-lib/src/tokenizer/mod.rs:tokenize", "nanvm-lib/src/parser/parser.rs:parse", "nanvm-lib/src/parser/any_state.rs"]}
{"id": "C84", "title": "Exactly the texts of the language are accepted", "statement": "The tokenizer returns tokens without an error token exactly for the texts that are sequences of words (strings, identifiers, punctuators, numbers, bigints), blanks, comments and line breaks, and then returns the tokens of this sequence. Loading a module returns a value exactly when the texts of the files involved denote it by this lexical grammar and the module grammar.", "quantifier": "all texts, all file systems and module graphs", "why_tests_cant": "a test can show that some bad text is rejected, not that every one is", "anchors": ["nanvm-lib/src/tokenizer/mod.rs:tokenize", "nanvm-lib/src/parser/parser.rs:parse", "nanvm-lib/src/parser/root_state.rs", "nanvm-lib/src/parser/any_state.rs"]}
{"id": "C85", "title": "Exponents do not overflow", "statement": "Converting a number (a significand of any size with any 64-bit exponent, decimal or binary) to f64 returns: exponents beyond the range of f64 give zero or infinity, never a panic.", "quantifier": "all significands, all 64-bit exponents", "why_tests_cant": "2^64 exponents and unbounded significands; the tests use exponents near zero", "anchors": ["nanvm-lib/src/big_numbers/big_float.rs:to_bin", "nanvm-lib/src/big_numbers/big_float.rs:to_f64", "nanvm-lib/src/tokenizer/mod.rs:bigfloat_to_f64"]}
{"id": "C86", "title": "A wrong token is reported at once", "statement": "Reading a module token by token, at every point either some continuation makes it an accepted module or the error is already reported and stays whatever follows; a text that breaks off inside an import needs a module that can be loaded.", "quantifier": "all token sequences, all prefixes, all ways of loading modules", "why_tests_cant": "quantifies over all continuations of all prefixes", "anchors": ["nanvm-lib/src/parser/parser.rs:parse_with_tokens", "nanvm-lib/src/parser/json_state.rs:push", "nanvm-lib/src/parser/root_state.rs", "nanvm-lib/src/parser/any_state.rs"]}
{"id": "C87", "title": "A module uses one module system", "statement": "A module that contains an import or export statement and also a require call or module.exports is rejected, and the type returned for an accepted module is that of the system it uses.", "quantifier": "all modules and ways of loading modules", "why_tests_cant": "all combinations of statements in any order", "anchors": ["nanvm-lib/src/parser/root_state.rs", "nanvm-lib/src/parser/any_state.rs:set_djs", "nanvm-lib/src/parser/shared.rs:DataType"]}
{"id": "C88", "title": "A required module can be any part of a value", "statement": "In a CommonJS module a require call is accepted wherever a value may stand, and denotes the value of the module.", "quantifier": "all positions in all values", "why_tests_cant": "all nestings of arrays and objects around the call", "anchors": ["nanvm-lib/src/parser/any_state.rs:parse_array_begin", "nanvm-lib/src/parser/any_state.rs:parse_array_comma", "nanvm-lib/src/parser/any_state.rs:parse_value", "nanvm-lib/src/parser/any_state.rs:end_import"]}
{"id": "C89", "title": "JSON output depends on the value only", "statement": "Values with the same structure and scalars are written as the same JSON text, wherever their blocks are and however they are shared; different values are written as different texts; two inputs with the same value are converted to the same JSON file; converting that file again gives the same text. A value in which no block is used twice is written in a module as in JSON, after the words that export it.", "quantifier": "all values, files, module graphs, hash orders and outputs", "why_tests_cant": "pairs of values and of whole conversions, for every sharing of blocks", "anchors": ["nanvm-lib/src/serializer/to_json.rs:to_json", "nanvm-lib/src/serializer/to_djs.rs:to_djs", "nanvm-lib/src/app/mod.rs:run"]}
{"id": "C90", "title": "Dropping a value needs a bounded stack", "statement": "Dropping a reference to a value, however deeply nested, does not overflow the stack: the number of nested calls is bounded by a constant.", "quantifier": "all heaps that programs can build, all sizes of the stack", "why_tests_cant": "tests drop small values on a large stack", "anchors": ["nanvm-lib/src/mem/optional_ref.rs:drop", "nanvm-lib/src/mem/block.rs:delete", "nanvm-lib/src/mem/flexible_array/mod.rs:object_drop"]}
{"id": "C91", "title": "Huge exponents without overflow checks", "statement": "In a build without overflow checks (a release build) every text is tokenized as in a build with checks, and a number literal whose exponent does not fit in 64 bits is read as infinity or zero, or is refused.", "quantifier": "all texts, all literals, all exponents, all following texts", "why_tests_cant": "tests run with overflow checks, and exponents of more than 18 digits do not occur in them", "anchors": ["nanvm-lib/src/tokenizer/mod.rs:ExpState::add_digit", "nanvm-lib/src/tokenizer/mod.rs:exp_state_into_token", "nanvm-lib/src/tokenizer/mod.rs:FracState::add_digit"]}
{"id": "C92", "title": "The block of a flexible array has room for its items", "statement": "For every length reported by the iterator, the block requested for a flexible array has room for the headers and all the items, in builds with and without overflow checks, and its layout is within the limit of the allocator interface (2^63 - 1 bytes); a length for which this is impossible is refused.", "quantifier": "all item types, block headers and lengths", "why_tests_cant": "lengths near 2^64 divided by the size of an item cannot be allocated in a test", "anchors": ["nanvm-lib/src/mem/flexible_array/mod.rs:flexible_size", "nanvm-lib/src/mem/block.rs:block_layout", "nanvm-lib/src/mem/field_layout.rs:layout", "nanvm-lib/src/mem/manager.rs:new"]}
{"id": "C93", "title": "A refused allocation is reported", "statement": "When the system allocator gives a block, all writes of a construction are inside it; when it returns null, the construction is given up without writing through the null pointer.", "quantifier": "all allocators, item types, block headers and lengths, with the global and the local manager", "why_tests_cant": "the allocator does not fail in tests", "anchors": ["nanvm-lib/src/mem/manager.rs:new", "nanvm-lib/src/mem/global.rs:alloc", "nanvm-lib/src/mem/local.rs:alloc"]}
{"id": "C94", "title": "Errors about modules are true", "statement": "When parsing ends with 'cannot read file', a chain of imports leads from the root module to a file that cannot be read, and that file is the last one asked for; when it ends with 'circular dependency', a chain of imports leads to a module that imports itself, directly or through others. Hence modules that are all readable and import each other without a circle are never refused for these reasons, however they share modules.", "quantifier": "all file systems, module graphs, module texts and root paths", "why_tests_cant": "the graphs of imports are unbounded, and the states in between are shared by all branches", "anchors": ["nanvm-lib/src/parser/parser.rs:parse", "nanvm-lib/src/parser/parser.rs:root_state_parse", "nanvm-lib/src/parser/parser.rs:any_state_parse_import_value", "nanvm-lib/src/parser/parser.rs:parse_with_tokens"]}
{"id": "C95", "title": "Failures are visible in the exit status", "statement": "The program ends with status 0 only if the input was parsed and the whole output was written.", "quantifier": "all arguments, file systems and disks", "why_tests_cant": "tests call the function that returns the error, not the program", "anchors": ["nanvm/src/main.rs:main", "nanvm-lib/src/app/mod.rs:run"]}
{"id": "C96", "title": "Only the imported files matter", "statement": "Whatever a parse returns, value or error, is unchanged when files that are not reached from the root by imports change, appear or disappear; every file that is read is reached by imports; and a conversion returns and writes the same.", "quantifier": "all pairs of file systems, module graphs, root paths, outputs, hash orders and disks", "why_tests_cant": "it relates two runs, and there are infinitely many files that must not matter", "anchors": ["nanvm-lib/src/parser/parser.rs:parse", "nanvm-lib/src/parser/parser.rs:root_state_parse", "nanvm-lib/src/parser/parser.rs:any_state_parse_import_value", "nanvm-lib/src/app/mod.rs:run"]}
{"id": "C97", "title": "Parsing needs memory linear in the files read", "statement": "A text gives at most as many tokens as it has characters, and the strings and names in them are together no longer than the text. However modules import each other, the number of arrays and objects made by a parse, and the number of different ones in the value, is at most the number of characters of the files read, each counted once.", "quantifier": "all texts, module graphs and results", "why_tests_cant": "bounds for all texts and graphs; tests have no access to the allocations", "anchors": ["nanvm-lib/src/tokenizer/mod.rs:tokenize", "nanvm-lib/src/parser/parser.rs:parse", "nanvm-lib/src/parser/any_state.rs:end_array", "nanvm-lib/src/parser/any_state.rs:end_object"]}
{"id": "C98", "title": "Values that the parser drops do no harm", "statement": "When the parser or the converter drops values (constants that are not used, values under a repeated key, values begun before an error, the module cache at the end), nothing is seen of it: texts with bigint literals are converted, or refused with an error, like all others.", "quantifier": "all module graphs, outputs, hash orders and disks", "why_tests_cant": "the drop that panics may be far from the literal, in another module, or after the output has been written; the tests of the parser move every bigint out of its Any", "anchors": ["nanvm-lib/src/js/any_internal.rs:delete", "nanvm-lib/src/parser/parser.rs:parse", "nanvm-lib/src/parser/parser.rs:parse_with_tokens", "nanvm-lib/src/parser/any_state.rs:push_value", "nanvm-lib/src/app/mod.rs:run"]}
{"id": "C99", "title": "Syntax errors say what is wrong", "statement": "Every error that a parse returns, other than those about modules, is true of a file that was read: an error about const, export, import or require comes only after that keyword, at a token that cannot follow there; a missing new line is reported only after a const or import, for a token that follows another one on its line. Texts without these keywords get none of these errors, and a text of new lines only is one that ends too early. A text that begins with a broken statement gets the error of this statement, whatever follows.", "quantifier": "all module graphs, texts and errors", "why_tests_cant": "tests compare the kinds of a few errors; that no text gets a misleading one ranges over all texts and all states of the parser, also in imported files", "anchors": ["nanvm-lib/src/parser/root_state.rs", "nanvm-lib/src/parser/any_state.rs", "nanvm-lib/src/parser/parser.rs:parse", "nanvm-lib/src/parser/parser.rs:parse_with_tokens"]}
