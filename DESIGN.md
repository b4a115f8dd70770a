# Formal model of ryanolee/go-chaff in Rocq (Coq 8.16.1)

## Approach

* One Coq file per Go source area under `rocq/theories`. Every definition carries a comment citing
  the file and lines of `/repo` it models and says where it simplifies.
* Go `int` is `Z`, `float64` is IEEE binary64 (Flocq `BinarySingleNaN`, 53/1024, every rounding
  modelled), strings are Coq `string` (bytes), maps are association lists, pointers to values are
  `option`, structs are records.
* A Go call that panics is the value `Panic`; a loop or a recursion without a structural measure
  runs on fuel and returns `Timeout` when it runs out; "it terminates" is a theorem that for every
  input there is an amount of fuel for which the result is not `Timeout`.
* Randomness (`opts.Rand`, the global source used by `funk.Shuffle`, `faker`, `regen`) is an
  arbitrary stream of draws; theorems quantify over all streams.
* Third-party calls (JSON-schema validator, `regexp`, `regexp/syntax`, `net/url`, the file system,
  HTTP) are explicit function arguments (oracles), universally quantified in theorems.
* Theorem files (`P_*.v`) contain the theorem statements with short proofs, `Print Assumptions`, and
  non-vacuity examples. Specifications independent of the model are in `Spec*.v`.
* A property that the code violates is recorded as a theorem `..._refuted` with a concrete witness,
  beside the strongest true variant (`..._partial`).

## Plan per property

| id | modelled | proof method |
|----|----------|--------------|
| C01 | `RandomInt` over a draw stream | arithmetic on `Z.modulo` |
| C02 | `RandomFloat` in binary64 | Flocq: `u*D < max-min` since `(1-e)(1+e)<1`, predecessor argument, monotone rounding |
| C03 | `parseNumber`, `numberGenerator.Generate` (integer) | C02 + monotone `Round` |
| C04 | same (number) | C02; frontier of the 1e-14 epsilon: proof below 128, refutation above |
| C05, C06 | `generateMultipleOf`, `countMultiplesInRange`, `Round` | floats; whole multiples for integers, multiples in few binary digits for numbers, a counterexample for decimal ones |
| C07 | `parseNumber` | refutation by witness, partial for the rest |
| C08 | `parseString`, `stringGenerator.Generate` | induction on the fill loop |
| C09, C45 | `regen` generator tree, char classes | induction over syntax trees |
| C10 | the textual rewriting of `regex.go` | refutation by witness |
| C11-C13 | `parseArray`, `arrayGenerator.Generate` | loop invariants |
| C14-C17 | `parseObject`, `objectGenerator.Generate` | loop invariants on key sets |
| C18-C22 | enum, const, types, combination, if, constraints | induction on retry loops |
| C23-C25 | whole generator tree with reference table | lexicographic measure (open references, tree) |
| C26-C28 | options, retry budget | float monotonicity, case analysis |
| C29-C31 | whole parser | induction over fuel / nodes |
| C32-C35 | `merge.go` | algebra over all nodes |
| C36-C38, C50 | `not.go` | interval arithmetic |
| C39 | `reference_path.go` | induction on the pointer; refutations |
| C40-C42 | `fetchers.go`, `document.go` | policy as predicate, worklist invariant |
| C43 | `json.go` | structural induction |
| C44 | `rng.go` | bit-vector linear algebra |
| C46 | `formats.go` | grammar equivalence by induction on strings |
| C47, C48 | parse + generate end to end on a fragment | induction over schemas |
| C49 | `parse.go` entry points and options (Api.v) | case analysis over histories of calls, refutations |
| C51, C53 | `cli/cli.go` flags (Api.v) | reduction to C40, C41 and C49, refutations |
| C52 | `cli/cli.go` writeFile as system calls with interference and interruption | induction on the execution, refutations |
| C54 | `formats.go` date, date-time, period | induction on strings against a calendar specification |
| C55 | `not.go` notMerge, end to end with the parser | induction over the pair of schemas; refutations |
| C56 | the whole parser, with the two places that can panic (`reference_path.go`, `not.go` resolveBool) | an invariant of the parser state kept by every function, and of the nodes it builds; refutations |
| C57 | the retry loops of constraint.go, combination.go and if.go with the constraints collected by not.go | induction on the attempts granted; the collected exclusions all come from the negated schema |
| C58 | `random.go` string seeds (Seed.v), over characters | the loop equals a sum modulo 2^64; a changed character changes the sum by less than 2^64; refutation |
| C59 | `random.go` Shuffle, StringChoiceMultiple, Choice with math/rand Perm | induction on the length: the permutation loop inserts, and every permutation is reached |
| C60 | the generators of enums, booleans, type lists, anyOf, integers, arrays and objects (Gen.v, Number.v), run forwards from a chosen draw | a draw is given for each wanted value; where the exclusive upper limit of RandomInt cuts a value off, that it never comes out is proved instead |
| C61 | `internal/regen/rng.go` Int63 as single accesses to the shared word, any number of goroutines, any order (Race.v); math/rand Intn over the numbers returned | invariants over all orders: 64-bit range, and with one read per statement not zero; a schedule that reaches zero with two reads; a goroutine alone simulates the sequential model |
| C62 | the decoder of `json.go` and the struct tags of `parse.go` (Codec.v) against SpecText.v, which says keyword by keyword what a text means | induction over JSON values, both directions |
| C63 | `error.go` (Errors.v): the map of maps, played back from the parser's reports; CollectErrors under any order of visits | an entry of the table is the newest report of its place (induction over the reports); invariants on distinct keys; refutation for several reports at one place (C30) |
| C64 | `parseString`, `parseObject`, `parseArray` as reached through `parseNode` (Parse.v), keywords compared in SpecAccept.v | case analysis of each check in order; counting distinct names (NoDup, incl) for objects; a refused array leads to a refused member schema; refutation for pattern with lengths, contains beside prefixItems or minItems, and prefixItems longer than maxItems |

## Which file models what

| Go source | model | what is proved about it in |
|-----------|-------|----------------------------|
| `random.go` | Rand.v, Seed.v, Float64.v | P_Number.v, P_Rand.v (Shuffle.v) |
| `internal/regen/rng.go` | Rng.v, Race.v | P_Regen.v, P_Race.v |
| `number.go`, `internal/util` | Number.v, Util.v | P_Number.v, P_Reach.v (ReachNum.v) |
| `generator.go` (options), `reference_hander.go` stack | Options.v, Gen.v | P_Gen.v |
| `string.go`, `array.go`, `object.go`, `combination.go`, `multiple_type.go`, `enum.go`, `const.go`, `if.go`, `constraint.go`, `reference.go` (Generate methods) | Gen.v | P_Gen.v, P_Values.v, P_Constr.v, P_Reach.v (Reach.v) |
| the parse functions of the same files, `parse.go`, `root.go`, `all_of.go`, `assert.go`, `schema.go` | Parse.v | P_Parse.v, P_Report.v, P_Panic.v |
| `merge.go` | Merge.v | P_Merge.v (MergeMany.v), P_NotRest.v, P_Combos.v (AllOfValues.v) |
| `not.go` | NotMerge.v | P_Not.v, P_Negate.v, P_NotRest.v |
| `reference_path.go` | RefPath.v | P_Ref.v |
| `document.go`, `reference_hander.go` | PState.v, Rewrite.v | P_Refs.v, P_Linked.v, P_Fetch.v |
| `fetchers.go` | Fetch.v | P_Fetch.v |
| `json.go` | Codec.v, Json.v | P_Codec.v, P_Text.v |
| `formats.go` | Formats.v | P_Formats.v, P_Mail.v |
| `internal/regen` | Regen.v | P_Regen.v |
| `error.go` | Errors.v (from the reports in PState.v) | P_Errors.v |
| exported functions, `cli/cli.go` | Api.v | P_Api.v |
| the whole parser, for panics | all of the above | P_Calm.v |
| retries of constraints | Gen.v, NotMerge.v | P_Tries.v, P_Combos.v |
| parse and generate together | all of the above | Names.v and NamesTidy.v (which names parsing registers), Conditional.v, P_Sound.v, P_Conditional.v, P_Linked.v, P_Negate.v |

The vocabulary of the statements is in the `Spec*.v` files: SpecSchema.v (what it means for a value to be
valid, written from the JSON Schema specification and not from the code), SpecNumber.v (numbers as reals),
SpecFragment.v (which schemas the end-to-end theorem C47 covers), SpecMerge.v (which branches can be
merged), SpecNegate.v (which pairs of schema and negated schema), SpecRegex.v (the language of an
expression), SpecFormats.v, SpecFetch.v, SpecText.v (what a schema text says), SpecRef.v, SpecRefs.v, SpecLinked.v, SpecPanic.v, SpecCalm.v, SpecTries.v, SpecParse.v,
SpecRun.v.

## Simplifications

Each is also noted at the definition concerned.

* Aliasing. A constraint collection that Go merges in place, the backing arrays of `mergedIf` and
  `mergedNot` that `append` may share, and the write of `typeAll` into a `Type` shared between copies of a
  node (parse.go 392) are modelled as values.
* Maps are association lists: iteration order is list order. Theorems about generated objects hold for
  every order of the draws, which covers every order of the keys that the shuffle can produce. Duplicate
  and case-insensitive JSON keys are resolved before the model starts.
* Integers: Go `int` overflow at 2^63 in `not.go` bounds is not modelled (`number.go` conversions are).
  `strings` are measured in bytes, as the code does.
* Text of numbers beyond 2^53 in the schema-to-JSON direction is not modelled.
* The compiled JSON schema of a node (`santhosh-tekuri/jsonschema`) is the oracle `pxCompile`, `pxValid`,
  `eValid`; validity does not depend on the scope it is compiled in. Where a theorem needs the oracle to be
  right, that is a hypothesis relating it to SpecSchema.valid. AddResource failing for the root document is the oracle
  `lbResource`.
* `regexp`, `regexp/syntax` (parse and Simplify), `net/mail`, `net/url`, `net/http`, `os`, `filepath` are oracles; laws
  needed of them are hypotheses (`urlLaws`) or are modelled (`httpGet` for redirections). `time.Parse` is
  modelled for the layout 2006-01-02 only. `faker` texts are oracles; the clock text is the hypothesis `clockText`.
* Regular expressions: flags, case folding, custom capture group handlers and `RngSource` are left out. While a schema is parsed,
  creating a regular expression generator is an oracle that answers yes or no; that it can panic is C45 (a class with NUL) and, for
  MinUnboundedRepeatCount above MaxUnboundedRepeatCount, C09_options.
* The outside world does not change while one schema is parsed. The working directory is a cleaned absolute path.
* `popRes` and `popPath` on an empty stack, and `resolveReferencePath` of a nil node with an empty path, are not
  reached by the modelled callers.
* `notApplyNumberAndInteger` lines 348-364 (an enum already on the new node) are unreachable and left out.
* The command line flags `-help`, `-version`, `-format`, `-verbose` are not modelled; one `Write` call stores all data.

## Not modelled

`examples/`, `test/` and the generated data; logging; `json.go` error texts (only that an error is
returned, and where it is recorded); the texts of messages except where they are part of a result; the
Go garbage collector and goroutines (the library starts none).

## What the proofs found

Each of these is a theorem with a concrete witness (name in brackets, `_refuted` left out).

* Numbers: `minimum` equal to `maximum` is rejected for integers (C07_satisfiable), and so are bounds whose only multiple is the
  lower one (C07_multiple); bounds beyond int64 (C03_integer_bounds); an exclusive bound of 1000 is inclusive (C04_number_exclusive);
  decimal multiples are inexact (C06_number_multipleOf); the count of multiples can overflow, and generation then panics (C48_many_multiples).
* Sizes: `maxLength`, `maxItems` and `maxProperties` of 0 mean the default (C08_maxLength_zero, C11_size, C15_count); `items: false` and a
  tuple drop minItems and contains (C11_size, C12_contains); uniqueItems does not look at the tuple (C13_tuple); fillers break
  `additionalProperties: false` beside patterns (C16_filler) and overwrite declared names (C17_overwritten).
* Types: `{"type": []}` is accepted and panics (C48_empty_types); a refused member of a type list silently becomes null (C19_refused_type, C30_types, C47_valid).
* Options: SuppressFallbackValues is always on (C28_suppress_fallback); number and string defaults are never used (C28_number_string_defaults); property pattern
  options are never used, and parsing a file writes RelativeTo into the caller's options (C49).
* Conditions: with two of them the first need not hold (C21_two_conditions).
* Negation: required beside the same negated required (C22_required), sizes of 2^31 (C36_large_bounds), number bounds of 1000
  (C37_large_number_bounds) and negated multiples when no number is left (C37_no_number_left) are dropped silently;
  additionalProperties false is widened, items arrays and the allOf of a property are lost (C55).
* Merging: a second type, anyOf, `items: false`, ... is lost silently, a second pattern with a report (C32_lost, C32_overwritten); const beside
  enum (C34_enum_with_const); merged decimals are no common multiple (C35_small_decimals).
* References: a pointer ending in a single-schema keyword addresses the schema above, pointers through lists are refused when the
  index exists and panic when it does not, a missing keyword is dereferenced (C39); items arrays are registered as prefixItems, properties beside anyOf are not
  registered, names with slashes collide (C31); compiled schemas are confused when their names differ only in punctuation (C18_collision).
* Parsing: equal `uniqueItems` on both sides of a negation, and a reference below allOf to a missing list position, panic (C56); a double negation of a reference to itself never ends (C29_ends); schemas below MaxParseDepth silently become null (C30_depth).
* Documents: the allowed-path check is inverted, and a `#` in the working directory escapes it (C41); redirections are not checked (C40_redirect);
  a document that cannot be fetched is tried again (C42_failing).
* Encoding: an items array is written back as `{}` (C43_all_schemas).
* Regular expressions: `.` panics unless limited to ASCII, anchors inside are ignored, surrogates (C09); the replacement of `.` also happens inside classes
  (C10); a class with NUL panics (C45_null).
* Formats: `time` and `date-time` accept signs, `hostname` accepts `a.-b` (C46, C54); formats that are known but not supported generate text that is not of the format (C46_placeholder).
* Command line: the fetch flags have no effect for standard input, `-allow-insecure` alone allows every host (C51); a file created meanwhile is overwritten, an
  interrupted run leaves an empty file (C52); flags of 0 mean the default (C53_zero).

Seen while modelling, without a theorem: a negative DefaultObjectMaxProperties can make
generation panic; allowed hosts given as URLs never match; references inside `enum` and `const` values are rewritten with the others; integers above 2^53 change
when a merged document is rewritten; with only the HTTP fetcher enabled, `allOf` with a local reference in a root that was read from a file cannot be merged.

## Testing the theorems

`seeded/LOG.jsonl` has one line per wrong program: the model was edited in a scratch copy, rebuilt, and the theorems of
the claim it breaks were expected to fail. Where none did, the line names the theorem that was added or tightened.

## Trusted base

* Coq 8.16.1's kernel (`coqc`; no `native_compute`; `vm_compute` is used for concrete cases).
* The axioms listed below: those of the standard library's real numbers and of Flocq's use of them. No axiom of our own,
  no section-less Variable or Hypothesis, no functor or module type, nothing admitted.
* That the model is the code: every definition cites the lines it models; the code was not run.

<!-- AXIOMS -->
`Print Assumptions` of the 287 theorems (regenerate with `tools/mkaxioms.py`):

* no axiom (closed under the global context) (80 theorems):
  `C01_randomInt_equal`, `C01_randomInt_onto`, `C01_randomInt_panics`, `C01_randomInt_range`, `C09_dot_refuted`, `C09_interior_anchor_refuted`, `C09_matches_partial`, `C09_options`, `C09_surrogate_refuted`, `C09_total_partial`, `C10_backslash_refuted`, `C10_class_refuted`, `C10_narrows_partial`, `C10_negated_class_refuted`, `C28_bypass_used`, `C28_int_options_partial`, `C28_suppress_fallback_refuted`, `C39_index_refuted`, `C39_last_keyword_refuted`, `C39_missing_partial`, `C39_never_panics_partial`, `C39_no_list_partial`, `C39_panic_refuted`, `C39_resolves_partial`, `C39_terminates`, `C44_any_seed`, `C44_distinct`, `C44_never_zero`, `C45_exact_partial`, `C45_null_refuted`, `C46_duration`, `C46_email_partial`, `C46_hostname_partial`, `C46_hostname_refuted`, `C46_ipv4_partial`, `C46_ipv4_refuted`, `C46_ipv6`, `C46_json_pointer`, `C46_relative_json_pointer`, `C46_strings_only`, `C46_time_partial`, `C46_time_refuted`, `C46_uri`, `C46_uri_reference`, `C46_uri_template`, `C46_uuid`, `C49_string_options`, `C52_complete`, `C52_crash_refuted`, `C52_keeps_partial`, `C52_race_refuted`, `C53_bypass`, `C53_flags_partial`, `C53_without_flags`, `C53_zero_refuted`, `C54_date`, `C54_date_time_partial`, `C54_date_time_refuted`, `C54_period_partial`, `C57_failure`, `C58_distinct_refuted`, `C58_one_character`, `C58_seed_sum`, `C59_choice`, `C59_choice_onto`, `C59_choices`, `C59_choices_onto`, `C59_shuffle_onto`, `C59_shuffle_permutes`, `C61_alone`, `C61_choice`, `C61_different_refuted`, `C61_never_zero`, `C61_numbers`, `C61_recovers`, `C61_texts_partial`, `C61_zero_refuted`, `C63_every_place`, `C63_has_errors`, `C63_last_error`

* `ClassicalDedekindReals.sig_forall_dec`, `FunctionalExtensionality.functional_extensionality_dep` (1 theorems):
  `C47_reading`

* `ClassicalDedekindReals.sig_forall_dec`, `ClassicalDedekindReals.sig_not_dec`, `Classical_Prop.classic`, `FunctionalExtensionality.functional_extensionality_dep` (206 theorems):
  `C02_randomFloat_range`, `C03_exclusive_refuted`, `C03_integer_bounds_partial`, `C03_integer_bounds_refuted`, `C03_integer_generates`, `C03_wide_bounds_partial`, `C03_wide_generates`, `C04_exclusive_sharp`, `C04_number_bounds_partial`, `C04_number_exclusive_refuted`, `C04_number_generates`, `C05_integer_multipleOf_partial`, `C06_number_multipleOf_partial`, `C06_number_multipleOf_refuted`, `C07_integer_accepted_partial`, `C07_multiple_refuted`, `C07_number_accepted_partial`, `C07_satisfiable_refuted`, `C08_length_partial`, `C08_maxLength_zero_refuted`, `C08_string_partial`, `C08_terminates`, `C11_array_partial`, `C11_size_partial`, `C11_size_refuted`, `C12_additionalItems_refuted`, `C12_contains_refuted`, `C12_maxContains_refuted`, `C12_positions_partial`, `C13_tuple_refuted`, `C13_unique_partial`, `C14_object_partial`, `C14_required_partial`, `C15_count_refuted`, `C15_max_partial`, `C15_min_partial`, `C16_filler_refuted`, `C16_names_partial`, `C17_overwritten_refuted`, `C17_values_partial`, `C18_collision_refuted`, `C18_const_partial`, `C18_enum_partial`, `C19_inferred`, `C19_kind`, `C19_refused_type_refuted`, `C19_type_list_partial`, `C19_unknown`, `C20_anyOf_partial`, `C20_both_partial`, `C20_oneOf_partial`, `C20_oneOf_single_partial`, `C21_if_partial`, `C21_two_conditions_refuted`, `C22_enum_left_partial`, `C22_merge_keeps`, `C22_not_partial`, `C22_properties_partial`, `C22_required_refuted`, `C22_several_partial`, `C23_generation_terminates`, `C24_reference_entries`, `C24_stack_restored`, `C25_counter_never_decreases`, `C25_past_cutoff_no_retry`, `C25_past_cutoff_nothing`, `C26_budget_antitone`, `C26_budget_cutoff`, `C26_budget_full`, `C26_budget_range`, `C27_calls_independent`, `C28_number_string_defaults_refuted`, `C29_depth`, `C29_ends_partial`, `C29_ends_refuted`, `C29_outcome`, `C29_restored`, `C30_depth_refuted`, `C30_if_reported`, `C30_kept`, `C30_kept_documents`, `C30_oneOf_reported`, `C30_overwritten_refuted`, `C30_pattern_reported`, `C30_reported_partial`, `C30_types_refuted`, `C31_behaves`, `C31_collision_refuted`, `C31_escape_refuted`, `C31_external_partial`, `C31_items_refuted`, `C31_local`, `C31_missing_refuted`, `C31_registers_partial`, `C31_resolves_partial`, `C31_scope_refuted`, `C31_table_partial`, `C32_conditions_kept`, `C32_conflicts_reported`, `C32_generated`, `C32_lost_refuted`, `C32_merged_implies_branches_partial`, `C32_overwritten_refuted`, `C33_merge_bounds_any_order`, `C33_merge_bounds_exact`, `C34_empty_intersection_reported_partial`, `C34_enum_with_const_refuted`, `C34_merge_enum_intersection_partial`, `C35_any_number_partial`, `C35_common_multiple_partial`, `C35_small_decimals_refuted`, `C36_large_bounds_refuted`, `C36_negated_int_bounds_partial`, `C36_several_negations_partial`, `C37_large_number_bounds_refuted`, `C37_negated_integer_bounds_partial`, `C37_negated_multiples_bounds_partial`, `C37_negated_multiples_partial`, `C37_negated_number_bounds_partial`, `C37_no_number_left_refuted`, `C38_empty_types`, `C38_negated_types_removed`, `C38_negated_types_values`, `C38_types_kept`, `C40_disabled`, `C40_redirect_refuted`, `C40_requests_partial`, `C41_allowed_refuted`, `C41_hash_refuted`, `C41_inside_partial`, `C41_nothing_without_paths`, `C42_drains`, `C42_failing_refuted`, `C42_once_partial`, `C42_reference_waits`, `C42_rounds`, `C42_still_waits`, `C42_waiting_parsed`, `C43_all_schemas_refuted`, `C43_encode_decode`, `C43_reread_partial`, `C46_generated_accepted`, `C46_placeholder_refuted`, `C47_condition_partial`, `C47_negated_partial`, `C47_oneOf_partial`, `C47_references_partial`, `C47_valid_partial`, `C47_valid_refuted`, `C48_empty_types_refuted`, `C48_many_multiples_refuted`, `C48_no_panic_partial`, `C49_depth`, `C49_fetches`, `C49_file_names`, `C49_histories_partial`, `C49_histories_refuted`, `C49_pattern_options_refuted`, `C49_unmodified_partial`, `C50_other_encoding_kept`, `C50_same_encoding_rejected`, `C51_empty_hosts_refuted`, `C51_files_partial`, `C51_hosts_partial`, `C51_nothing_by_default`, `C51_stdin_refuted`, `C55_additional_refuted`, `C55_allOf_refuted`, `C55_carried`, `C55_items_refuted`, `C55_kept_partial`, `C55_values_partial`, `C56_default_partial`, `C56_documents_partial`, `C56_parse_partial`, `C56_position_refuted`, `C56_unique_items_refuted`, `C57_allOf_ifs_partial`, `C57_allOf_nots_partial`, `C57_if_partial`, `C57_ifs_partial`, `C57_not_partial`, `C57_nots_partial`, `C57_oneOf_partial`, `C60_anyOf`, `C60_boolean`, `C60_enum`, `C60_integers`, `C60_integers_refuted`, `C60_lengths_partial`, `C60_lengths_refuted`, `C60_multiples_partial`, `C60_multiples_refuted`, `C60_subsets_partial`, `C60_subsets_refuted`, `C60_type_list`, `C62_parse`, `C62_reads`, `C62_written`, `C64_arrays`, `C64_arrays_satisfiable_partial`, `C64_objects`, `C64_objects_satisfiable`, `C64_satisfiable_refuted`, `C64_strings`, `C64_strings_satisfiable_partial`
<!-- /AXIOMS -->
