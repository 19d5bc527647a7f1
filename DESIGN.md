# Formal model of nanvm (Rocq / Coq 8.16)

The model is a set of computable Gallina functions that follow the Rust source
function by function (`rocq/theories/*Model.v`).  Proofs live in separate files
(`*Proofs.v` and companions), specifications in `*Spec.v`, written without the model's
helpers, and the theorems that count are in `Prop_*.v`, each followed by
`Print Assumptions` and by an example with a concrete state.

## Conventions

* A Rust function that can panic or loop returns `outcome A := Ok a | Panic | NoFuel`.
  `Panic` covers `panic!`, `unreachable!`, `todo!`, `unwrap` on `None`, index out of
  bounds, integer overflow/underflow in a debug build and division by zero.
* Loops without a structural bound take `fuel : nat`; `NoFuel` is a value of its own
  and theorems exclude it ("there is a fuel from which on the result is ...").
  "Does not terminate" is "for every fuel the result is `NoFuel`".
* The heap model uses `res A := ROk | RFault | RPanic | RNoFuel | RStuck`; `RFault` is an
  access to memory that is not allocated or a double release (undefined behaviour in the
  code), `RStuck` an operation the program could not write (ill typed).
* `u64`/`u128` values are `Z` with the wrap-around or range check written out.
* Limb vectors (`Vec<u64>`, least significant first) are `list Z`; `val` is the
  denoted integer; canonical = every limb in range and last limb not zero.
* `char` is a code point in `Z`; UTF-16 units are `Z`; f64 is its bit pattern in `Z`.
* If a property is false of the code, the theorem `..._refuted` exhibits a witness
  computed by the model, and the strongest true part found is proved beside it
  (`..._partial`, with a comment naming what is missing).

## Plan per property

| Id | Model | Theorem and proof |
|----|-------|-------------------|
| C01-C04 | limb loops of `big_uint.rs` | exactness against `Z`, induction on limb lists; multiplication by a loop invariant over the index pairs |
| C05 | division loop with fuel | refuted: wrong quotient and non-termination; proved for divisors whose limbs below the top one are zero (includes all one-limb divisors) |
| C06, C07, C08 | shifts and power loop | shl/pow exact; shr refuted (mask), proved where the mask is right |
| C09 | constructors | refuted for `from_u64(0)`; preservation proved for the other operations |
| C10-C14 | `big_int.rs` | exactness against `Z`; cmp, div_mod, from_i64 refuted plus exact domain |
| C15-C24 | `js_bigint.rs` (header length carries the sign) | exactness against `Z` (`Z.land`, `Z.lor`, `Z.lxor`, `Z.shiftl`, `Z.shiftr`, `Z.quot`, `Z.rem`, `Z.pow`), refuted where wrong, with the exact domain of validity |
| C25-C27 | `big_float.rs`, number part of the tokenizer | spec is Flocq: `round radix2 (FLT_exp (-1074) 53) ZnearestE`, `b64_of_bits` |
| C28-C30 | `range_map.rs` | linear-search specification; merge by induction over both lists |
| C31-C38 | `tokenizer/mod.rs`; transition tables built by the range-map model | table lookup = character classification for all characters; run lemmas per lexeme |
| C39-C45 | `parser/*.rs` state machine | declarative grammar, soundness and completeness; invariants of the state machine |
| C46-C52 | module loading with a file-system function, fuel = import depth | invariants on cache/progress/read trace, counting argument for termination |
| C53-C58 | serializers; values carry block identity | round trip by induction on values; DJS output against a token grammar (SerializerSpec) and a character grammar of JavaScript shown unambiguous (JsTextSpec, JsTextUnique), any hash order |
| C59-C61, C71 | NaN-boxing and `bit_subset64.rs` | bitwise reasoning on `Z` (`Z.testbit`) |
| C62-C65, C67 | abstract heap with counters, handles and nested containers | invariant: counter = number of owners - 1; acyclicity; leak freedom; counters of the local manager |
| C66, C68, C69 | arena, layouts, flexible arrays | invariants over arbitrary allocation histories; arithmetic of offsets |
| C70 | `app::run` over an abstract file system | case analysis over all outcomes |
| C72 | auto traits of the reference types; threads stepping through the two halves of a counter update | type computation; witness schedules; invariant over all schedules for the atomic counter |
| C73 | tokenizer, parser, UTF-16 | decoding relation of the Unicode standard; invariant that tokens of a text are texts |
| C74 | parser, serializers and `app::run` together | invariant that parsed values are pictures of one heap; counting of blocks in JSON mode; composition of C39, C53, C56, C58 |
| C75 | memory events of threads on one block (`mem/block_header.rs` orderings) | happens-before as a relation on positions of the trace; invariant: every access is known to an owner or to the counter |
| C76 | `RefMut::modify` with a function that returns or unwinds | drops counted in the trace of owners |
| C77 | `Manager::new`, `construct`, `object_drop`, `Block::delete` with a panic at any item | drops counted; leaks exhibited |
| C78 | the counter as a 64-bit integer of the three counter types | invariant counter = references modulo 2^64 |
| C79 | `write_json`, `track_consts_for_any` with a bounded stack (`CostModel.v`) | induction on frames; parser by C39 |
| C80 | `to_djs` with its calls counted (`CostModel.v`) | cost of one round = size of the unfolding; rounds only remove blocks inside the value they start with |
| C81 | parser | instance of the grammar (C39) |
| C82 | path functions and imports | places reached by walking the components, compared with the normal form |
| C83 | tokenizer and parser on RFC 8259 texts | character grammar of JSON (JsonSpec), induction on its derivations |
| C84 | tokenizer and parser on all texts | left-to-right lexical grammar (LexSpec); invariant saying which text each tokenizer state has consumed; results independent of fuel (FuelMono) |
| C85 | `big_float.rs` with the exponent checked as an `i64` (`ExpModel.v`) | the checked functions return the result of the unchecked ones or panic; exponents after the loops by bit lengths |
| C86 | the parser states of `ParserModel.v` | every state that is no error and waits for no module expects a non-empty language (`jres` of the soundness proofs); the states that wait are recognized by the last tokens |
| C87, C88 | the module grammar of `ParserSpec.v` (equal to the parser by C39) | induction over the grammar with scans of the token list; separate inductive `cjs_value` for what is accepted |
| C89 | `to_json`, `to_djs`, `app_run` | induction over values; injectivity from the round trip of C53; modules without shared blocks by the tracker |
| C90 | `drop_cell` of `MemModel.v`, whose fuel counts nested calls | induction over frames; chains of references as separate inductive; explicit programs for the refutation |
| C91 | `ReleaseModel.v`: the number scanner with arithmetic modulo 2^64, for an arbitrary conversion | simulation with the debug scanner; residues modulo 2^64 of the exponent by induction over its digits |
| C92, C93 | `ReleaseModel.v`: layouts of flexible arrays modulo 2^64, writes of a construction, arbitrary allocator | the block and header offsets of C68 and C69; lengths by division with remainder |
| C94 | the parser of `ParserModel.v`, all of it | relation `imports` between files; invariant: the modules in progress lead to the present one; induction over tokens and nesting |
| C95 | `Prop_Errors.v`: `main` on top of `app_run` | refuted by runs for each kind of failure |
| C96 | the parser and converter as they are | each token asks the loader at most once; the log of reads grows; induction over tokens and nesting |
| C97 | tokenizer and parser as they are | a potential for the states of the tokenizer; one block for each closing bracket; numbers of blocks from the heap of C74 |
| C98 | parser and converter with drops of bigints (`DropModel.v`): what was held before a step must be held after it | induction over tokens and import depth against the model without drops; a bigint token is kept or is an error; invariant of the states (what is current in which status) for the list of causes; keys among the strings read so far for the texts that keep their bigints (`DropKept.v`); removing the names of the blocks commutes with every step (`DropName.v`) |
| C99 | `parse`, all kinds of error (`blamed` in `BlameProofs.v` says which token deserves which error after which tokens) | every state remembers the last tokens of its statement; induction over the tokens and the depth of imports; the file is found in the log of files read |

## Modelled code

| Source (nanvm-lib/src) | Model | Simplified |
|---|---|---|
| `big_numbers/big_uint.rs`, `big_int.rs` | `LimbsModel`, `BigUintModel`, `BigIntModel` | `Vec` never runs out of memory |
| `js/js_bigint.rs` | `JsBigintModel` | the value is the header (signed length) and the limbs; the block around it is the heap model's |
| `big_numbers/big_float.rs`, `js/number.rs` | `BigFloatModel`, `ExpModel` | in `BigFloatModel` the `i64` exponent of BigFloat is an unbounded `Z` (the tokenizer's own exponent arithmetic is checked); `ExpModel` checks it everywhere and C85 compares the two |
| `range_map.rs` | `RangeMapModel` | `merge` as a function on lists instead of an iterator |
| `tokenizer/mod.rs` | `TokenizerModel`, `ReleaseModel` (without overflow checks) | transition tables are constants; function pointers are constructors |
| `parser/{any_state,json_state,const_state,root_state,shared,path,parser}.rs` | `ParserModel`, `ValueModel`, `DropModel` (drops of bigints) | `Io` is a function from paths to texts; BTreeMap/BTreeSet are sorted lists; blocks have numbers as identities |
| `serializer/{to_json,to_djs}.rs` | `SerializerModel` | `f64::to_string` is a parameter `show`; the iteration order of the hash map is a parameter `peek`; writing to a string cannot fail |
| `app/mod.rs`, `nanvm/src/main.rs` | `SerializerModel` (end), `Prop_Errors` (`main`) | reading is a function; a write replaces the text or fails |
| `common/bit_subset64.rs`, `js/{bitset,any,any_cast,null,bool,type_}.rs` | `BitsetModel` | pointers are addresses in `Z` |
| `mem/{block,block_header,object,fixed,ref_,mut_ref,optional_ref,optional_block,local,global,arena,manager}.rs`, `mem/flexible_array/*`, `js/{any_internal,js_array,js_object,js_string,visitor}.rs` | `MemModel` (heap and reference counts), `LayoutModel` (offsets and sizes), `ThreadModel` (threads), `OrderModel` (memory events of threads) | a heap of typed blocks instead of bytes; counters do not overflow; the allocator always returns memory, below 2^48 |

Not modelled:

* `parser/analyzer.rs` and `ast/mod.rs`: declarations whose only function is empty.
* `common/{array,vec,default,cast,usize}.rs`, `static_ref_default.rs`:
  one-line wrappers without behaviour of their own (used through their definitions).
* Unwinding after a panic, except in C76 and C77 (elsewhere a panic ends the run); overflow
  of the counters, except in C78; stack depth, except in C79 and C90.  The updates of one atomic
  counter are totally ordered; what they order besides is modelled by happens-before (C75).
* Drops inside the parser and the serializers, except in C98 (they release memory, which is not seen,
  unless a bigint is dropped, which panics: C65).
* Zero-sized items in the construction of flexible arrays; a null pointer from the
  allocator, except in C93; builds without overflow checks, except in C91, C92 and C14.
* Running time and memory consumption, except termination, the calls counted in C80, the stack (C79, C90) and the blocks counted in C97.

## Trusted base

* Coq 8.16.1 kernel (with `vm_compute`); the standard-library axioms listed below.
  Libraries: standard library and Flocq 4.1.0 (its theorems, no axioms of its own).
* The correspondence between the Rust text and the model: every definition cites file and
  lines; the code itself was not run.
* The behaviour of the Rust standard library as written in the model: `char::from_u32`,
  `String::encode_utf16`, `BTreeMap`, `Vec`, integer overflow checks of a debug build.

## Seeded bugs

`seeded/LOG.jsonl` records edits of the model in a scratch copy, the claim that each edit
breaks, the theorems that no longer check, and the theorems tightened when none failed.

## Axioms (`Print Assumptions`) per theorem

No axiom is declared in this development.  The axioms below come from the standard library
(real numbers, used through Flocq to say what the nearest double is).

* 321 theorems: closed under the global context (none).
* `ClassicalDedekindReals.sig_forall_dec`, `FunctionalExtensionality.functional_extensionality_dep`: `C25_to_bin_partial`.
* `ClassicalDedekindReals.sig_forall_dec`, `ClassicalDedekindReals.sig_not_dec`, `Classical_Prop.classic`, `FunctionalExtensionality.functional_extensionality_dep`: `C26_to_f64_iff`, `C26_to_f64_partial`, `C26_to_f64_refuted`, `C27_boundary`, `C27_decimal_partial`, `C27_literal_partial`, `C27_wrong_refuted`, `C31_exponent_panics`, `C31_lost_refuted`, `C31_total_partial`, `C32_string`, `C34_bigint`, `C35_negative_zero_refuted`, `C35_positive_zero`, `C36_empty_exponent_refuted`, `C37_gap`, `C37_line`, `C37_sequence`, `C38_identifier`, `C38_punctuator`, `C46_terminates_partial`, `C53_astral_refuted`, `C53_round_trip_partial`, `C53_rust_partial`, `C56_denotes_partial`, `C56_proto_refuted`, `C56_text`, `C58_read_back_partial`, `C58_read_back_refuted`, `C70_returns_partial`, `C74_convert_partial`, `C74_exact_partial`, `C74_read_back_partial`, `C74_read_back_refuted`, `C74_rust_partial`, `C79_converter_refuted`, `C80_length_refuted`, `C83_json_partial`, `C83_json_refuted`, `C83_only_json_refuted`, `C84_exact_partial`, `C84_exact_refuted`, `C84_json_partial`, `C84_modules_partial`, `C84_modules_sound`, `C84_rejected_partial`, `C84_sound`, `C84_unambiguous_partial`, `C89_again_partial`, `C91_finite_refuted`.
