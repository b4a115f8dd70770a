{
 "claims": [
  {
   "property": "C01",
   "status": "proved",
   "theorems": [
    "C01_randomInt_range",
    "C01_randomInt_equal",
    "C01_randomInt_panics",
    "C01_randomInt_onto"
   ],
   "note": "math/rand Intn is modelled as draw mod n; the range assumption max-min < 2^63 excludes int64 overflow of the difference."
  },
  {
   "property": "C02",
   "status": "proved",
   "theorems": [
    "C02_randomFloat_range"
   ],
   "note": "All roundings of binary64 included (Flocq)."
  },
  {
   "property": "C03",
   "status": "partial",
   "theorems": [
    "C03_integer_bounds_partial",
    "C03_integer_generates",
    "C03_integer_bounds_refuted",
    "C03_wide_bounds_partial",
    "C03_wide_generates",
    "C03_exclusive_refuted"
   ],
   "note": "Proved for bounds up to 2^50 (multipleOf up to 2^40), and without multipleOf for every pair of inclusive bounds in the range of int64 beside exclusive bounds below 2^53 (C03_wide_bounds_partial); refuted for bounds beyond int64 and for exclusive bounds of 2^53 (C03_exclusive_refuted)."
  },
  {
   "property": "C04",
   "status": "partial",
   "theorems": [
    "C04_number_bounds_partial",
    "C04_number_generates",
    "C04_number_exclusive_refuted",
    "C04_exclusive_sharp"
   ],
   "note": "Inclusive bounds for all finite schemas; exclusive bounds are strict below 128, and from 128 on the bound itself is generated (C04_exclusive_sharp, up to 2^53), refuted at 1000."
  },
  {
   "property": "C05",
   "status": "partial",
   "theorems": [
    "C05_integer_multipleOf_partial"
   ],
   "note": "Proved for bounds up to 2^50 and multipleOf up to 2^40."
  },
  {
   "property": "C06",
   "status": "partial",
   "theorems": [
    "C06_number_multipleOf_partial",
    "C06_number_multipleOf_refuted"
   ],
   "note": "Proved (multiple and within bounds, strictly for exclusive ones) when multipleOf is at most 5000 steps of 1/2^j, j up to 14, and the bounds are at most 2^19 steps, not tiny, and below 128 when exclusive. Refuted in general: with multipleOf 0.1 rounding to 1e-14 leaves the bounds and the multiples."
  },
  {
   "property": "C07",
   "status": "partial",
   "theorems": [
    "C07_satisfiable_refuted",
    "C07_multiple_refuted",
    "C07_integer_accepted_partial",
    "C07_number_accepted_partial"
   ],
   "note": "Refuted in general; proved for integer keywords with two satisfying integers and for number schemas with room."
  },
  {
   "property": "C08",
   "status": "partial",
   "theorems": [
    "C08_length_partial",
    "C08_string_partial",
    "C08_terminates",
    "C08_maxLength_zero_refuted"
   ],
   "note": "Length bounds and termination for every plain node; refuted for maxLength 0, which is ignored. Lengths are bytes, and characters for ASCII sentences."
  },
  {
   "property": "C09",
   "status": "partial",
   "theorems": [
    "C09_matches_partial",
    "C09_total_partial",
    "C09_options",
    "C09_surrogate_refuted",
    "C09_dot_refuted",
    "C09_interior_anchor_refuted"
   ],
   "note": "Proved for anchors at the ends, literals that are characters and classes without reachable surrogates, for every simplifier that keeps the language (the standard library's Simplify is modelled and shown to be one); creation and generation proved panic-free for expressions without '.' and U+0000-U+0000; refuted for surrogates, '.', interior anchors."
  },
  {
   "property": "C10",
   "status": "partial",
   "theorems": [
    "C10_narrows_partial",
    "C10_class_refuted",
    "C10_negated_class_refuted",
    "C10_backslash_refuted"
   ],
   "note": "Proved for patterns of characters, dots, escapes, classes without '.' and '\\', groups, alternatives, repetition; refuted for [.] and [^.]."
  },
  {
   "property": "C11",
   "status": "partial",
   "theorems": [
    "C11_size_partial",
    "C11_array_partial",
    "C11_size_refuted"
   ],
   "note": "For plain nodes with maxItems > 0, no positional items list, default minimum not above maxItems. Refuted for maxItems 0, positional items with maxItems, items:false with a larger minItems."
  },
  {
   "property": "C12",
   "status": "partial",
   "theorems": [
    "C12_positions_partial",
    "C12_contains_refuted",
    "C12_maxContains_refuted",
    "C12_additionalItems_refuted"
   ],
   "note": "Positions, contains and the rest for every plain node; contains is refuted under items:false, maxContains is refuted beside prefixItems (C12_maxContains_refuted) and additionalItems:false beside a list of items (C12_additionalItems_refuted)."
  },
  {
   "property": "C13",
   "status": "partial",
   "theorems": [
    "C13_unique_partial",
    "C13_tuple_refuted"
   ],
   "note": "By JSON encoding for arrays without positional schemas; refuted for positional schemas."
  },
  {
   "property": "C14",
   "status": "partial",
   "theorems": [
    "C14_required_partial",
    "C14_object_partial"
   ],
   "note": "For every node without reference, combination, condition or negation."
  },
  {
   "property": "C15",
   "status": "partial",
   "theorems": [
    "C15_max_partial",
    "C15_min_partial",
    "C15_count_refuted"
   ],
   "note": "Upper bound and lower bound separately; refuted for maxProperties 0 and for minProperties with additionalProperties:false."
  },
  {
   "property": "C16",
   "status": "partial",
   "theorems": [
    "C16_names_partial",
    "C16_filler_refuted"
   ],
   "note": "Refuted with patternProperties and minProperties (min_filler keys)."
  },
  {
   "property": "C17",
   "status": "partial",
   "theorems": [
    "C17_values_partial",
    "C17_overwritten_refuted"
   ],
   "note": "Refuted for declared names the generator also invents."
  },
  {
   "property": "C18",
   "status": "partial",
   "theorems": [
    "C18_enum_partial",
    "C18_const_partial",
    "C18_collision_refuted"
   ],
   "note": "Listed values only; validity unless the resource name is taken, refuted by a name collision."
  },
  {
   "property": "C19",
   "status": "partial",
   "theorems": [
    "C19_type_list_partial",
    "C19_inferred",
    "C19_unknown",
    "C19_kind",
    "C19_refused_type_refuted"
   ],
   "note": "Type lists, inference order, unknown types; a refused listed type stands for null (refuted)."
  },
  {
   "property": "C20",
   "status": "partial",
   "theorems": [
    "C20_both_partial",
    "C20_anyOf_partial",
    "C20_oneOf_partial",
    "C20_oneOf_single_partial"
   ],
   "note": "anyOf and oneOf without sibling $ref or allOf; both together when the oneOf branches hold no combinations themselves. Beside allOf: C32_generated reduces the node to the merged one."
  },
  {
   "property": "C21",
   "status": "partial",
   "theorems": [
    "C21_if_partial",
    "C21_two_conditions_refuted"
   ],
   "note": "One condition; several conditions refuted."
  },
  {
   "property": "C22",
   "status": "partial",
   "theorems": [
    "C22_not_partial",
    "C22_required_refuted",
    "C22_enum_left_partial",
    "C22_several_partial",
    "C22_properties_partial",
    "C22_merge_keeps"
   ],
   "note": "Negated patterns, formats, constants, enum values and required names are kept out of the generated values, for one negation (C22_not_partial), for all negations of a schema, those collected from allOf branches included (C22_several_partial), and inside the properties a negation looks at (C22_properties_partial); what remains of an enum is given exactly (C22_enum_left_partial); merging keeps negations and exclusions (C22_merge_keeps). Not covered: negated schemas that are themselves references, allOf or negations. required next to the same negated required is refuted."
  },
  {
   "property": "C23",
   "status": "proved",
   "theorems": [
    "C23_generation_terminates"
   ],
   "note": "Assumes the text library never returns an empty sentence and the regex generator returns."
  },
  {
   "property": "C24",
   "status": "proved",
   "theorems": [
    "C24_reference_entries",
    "C24_stack_restored"
   ],
   "note": "Entries are read off the trace the model emits at each reference entry."
  },
  {
   "property": "C25",
   "status": "proved",
   "theorems": [
    "C25_past_cutoff_nothing",
    "C25_past_cutoff_no_retry",
    "C25_counter_never_decreases"
   ],
   "note": "Array, object, reference, combination and constrained generators."
  },
  {
   "property": "C26",
   "status": "proved",
   "theorems": [
    "C26_budget_range",
    "C26_budget_antitone",
    "C26_budget_full",
    "C26_budget_cutoff"
   ],
   "note": "Step counters and options below 2^51."
  },
  {
   "property": "C27",
   "status": "proved",
   "theorems": [
    "C27_calls_independent"
   ],
   "note": "The two random streams (per-call source and process-wide source) are explicit; generators and options are immutable values in the model."
  },
  {
   "property": "C28",
   "status": "partial",
   "theorems": [
    "C28_int_options_partial",
    "C28_bypass_used",
    "C28_suppress_fallback_refuted",
    "C28_number_string_defaults_refuted"
   ],
   "note": "Integer options and the bypass flag are used as set (0 counts as unset). Refuted for SuppressFallbackValues=false and for the number/string defaults, which nothing reads."
  },
  {
   "property": "C29",
   "status": "partial",
   "theorems": [
    "C29_restored",
    "C29_depth",
    "C29_ends_partial",
    "C29_outcome",
    "C29_ends_refuted"
   ],
   "note": "restored and depth hold for every schema; ends for documents whose references stand outside combinators, negations, conditions and contains, over finitely many document names; refuted in general: {\"not\":{\"not\":{\"$ref\":\"#\"}}} never ends"
  },
  {
   "property": "C30",
   "status": "partial",
   "theorems": [
    "C30_overwritten_refuted",
    "C30_reported_partial",
    "C30_kept",
    "C30_kept_documents",
    "C30_depth_refuted",
    "C30_types_refuted",
    "C30_oneOf_reported",
    "C30_if_reported",
    "C30_pattern_reported"
   ],
   "note": "reported for every refused node within the depth limit, for oneOf branches left out of the check, for then/else parts or conditions left out, and for property patterns that cannot be understood; errors are kept through the whole parse; refuted for nodes beyond the depth limit and for members of a list of types; of two reports for one place the list shows only the last (C30_overwritten_refuted)"
  },
  {
   "property": "C31",
   "status": "partial",
   "theorems": [
    "C31_registers_partial",
    "C31_behaves",
    "C31_collision_refuted",
    "C31_missing_refuted",
    "C31_escape_refuted",
    "C31_table_partial",
    "C31_external_partial",
    "C31_local",
    "C31_resolves_partial",
    "C31_items_refuted",
    "C31_scope_refuted"
   ],
   "note": "for documents built without combinations the table of references agrees with the document, part by part (root, definitions and fetched documents), and a local reference to such a part resolves to the generator made from exactly that part; refuted for names with slashes, escapes, properties next to anyOf, members of items lists (registered under prefixItems) and local references read after an inner merge with a remote document"
  },
  {
   "property": "C32",
   "status": "partial",
   "theorems": [
    "C32_generated",
    "C32_merged_implies_branches_partial",
    "C32_lost_refuted",
    "C32_overwritten_refuted",
    "C32_conditions_kept",
    "C32_conflicts_reported"
   ],
   "note": "C32_merged_implies_branches_partial covers branches that can be merged in the sense of SpecMerge.canMerge (no clashing type/pattern/format/uniqueItems, at most one anyOf/oneOf/not/multipleOf, additionalProperties and items only beside branches that name no further properties or positions, and the same for sub-schemas), including allOf inside branches and sub-schemas at any depth. C32_conditions_kept: every if/then/else of every branch is kept. The full statement is false of the code: C32_lost_refuted and C32_overwritten_refuted give branches whose keywords are lost. C32_conflicts_reported: different patterns, formats, lengths or uniqueItems of two branches are reported (of several conflicts at one place the list shown keeps the last, C30_overwritten_refuted). C32_generated: a node with allOf generates exactly what the merged node generates."
  },
  {
   "property": "C33",
   "status": "proved",
   "theorems": [
    "C33_merge_bounds_exact",
    "C33_merge_bounds_any_order"
   ],
   "note": "All finite bounds, any list of nodes; bounds of conjuncts at any allOf depth."
  },
  {
   "property": "C34",
   "status": "partial",
   "theorems": [
    "C34_merge_enum_intersection_partial",
    "C34_empty_intersection_reported_partial",
    "C34_enum_with_const_refuted"
   ],
   "note": "Values compared by JSON text. Nodes with both enum and const excluded (refuted: const is lost)."
  },
  {
   "property": "C35",
   "status": "partial",
   "theorems": [
    "C35_common_multiple_partial",
    "C35_small_decimals_refuted",
    "C35_any_number_partial"
   ],
   "note": "Any number of nodes, up to six decimal places and a product of the scaled values up to 2^53; refuted for 2e-7 and 3e-7."
  },
  {
   "property": "C36",
   "status": "partial",
   "theorems": [
    "C36_negated_int_bounds_partial",
    "C36_large_bounds_refuted",
    "C36_several_negations_partial"
   ],
   "note": "Bounds below 2^31-12 (less 2 for each negation when there are several); refuted for a negated minLength of 2^31, which is dropped silently."
  },
  {
   "property": "C37",
   "status": "partial",
   "theorems": [
    "C37_negated_integer_bounds_partial",
    "C37_negated_number_bounds_partial",
    "C37_large_number_bounds_refuted",
    "C37_negated_multiples_partial",
    "C37_negated_multiples_bounds_partial",
    "C37_no_number_left_refuted"
   ],
   "note": "Integer bounds up to 2^50 when integers remain; inclusive negated bounds up to 127 otherwise; refuted at 1000. Negated multiples: the list put in place of the numbers holds no multiple, and only integers within the bounds when integers remain; refuted when no number is left, where bounds and negation are dropped silently."
  },
  {
   "property": "C38",
   "status": "proved",
   "theorems": [
    "C38_negated_types_removed",
    "C38_negated_types_values",
    "C38_types_kept",
    "C38_empty_types"
   ],
   "note": "not{type:T} for every T with non-empty names, on names and on values."
  },
  {
   "property": "C39",
   "status": "partial",
   "theorems": [
    "C39_resolves_partial",
    "C39_missing_partial",
    "C39_terminates",
    "C39_no_list_partial",
    "C39_never_panics_partial",
    "C39_last_keyword_refuted",
    "C39_index_refuted",
    "C39_panic_refuted"
   ],
   "note": "Exact for pointers through names and single-schema keywords that end in a name; refuted in general for pointers ending in a keyword (parent returned), through lists (valid index refused, invalid index panics) and through absent keywords (panic). C39_never_panics_partial: any text without digits and without the four keywords whose absence is not checked. C39_no_list_partial: a missing list is refused."
  },
  {
   "property": "C40",
   "status": "partial",
   "theorems": [
    "C40_requests_partial",
    "C40_disabled",
    "C40_redirect_refuted"
   ],
   "note": "Every request made while parsing, for any schema, references, documents and url library meeting the stated laws, is for an https url (or insecure access is allowed) with a listed host (if there is a list); nothing is asked for when no fetcher is enabled. Refuted: http.Get follows redirections to hosts that are not listed."
  },
  {
   "property": "C41",
   "status": "partial",
   "theorems": [
    "C41_inside_partial",
    "C41_nothing_without_paths",
    "C41_allowed_refuted",
    "C41_hash_refuted"
   ],
   "note": "Every file read is at or below the working directory unless outside access is allowed (working directories without '#'). Refuted: the allowed-path check is inverted, so a file outside the only allowed path is read and one inside is not; a working directory with '#' in its name makes the parser read a path outside of it. Without allowed paths nothing is ever read."
  },
  {
   "property": "C42",
   "status": "partial",
   "theorems": [
    "C42_once_partial",
    "C42_rounds",
    "C42_drains",
    "C42_failing_refuted",
    "C42_reference_waits",
    "C42_still_waits",
    "C42_waiting_parsed"
   ],
   "note": "An id whose document was fetched is never taken from the queue again, the root never is, and the queue empties after a bounded number of rounds if finitely many ids are accepted and no single document exhausts the parser. Every document that an accepted reference names waits in the queue until it is parsed, and when the queue is empty each one was parsed or reported (C42_reference_waits, C42_still_waits, C42_waiting_parsed). Refuted: an id whose fetch fails is taken again."
  },
  {
   "property": "C43",
   "status": "partial",
   "theorems": [
    "C43_reread_partial",
    "C43_encode_decode",
    "C43_all_schemas_refuted"
   ],
   "note": "Re-encoding a schema that came from JSON text and decoding it again gives the same schema when no items keyword holds an array; refuted for items arrays, which the encoder drops. Duplicate and case-variant keys are not modelled."
  },
  {
   "property": "C44",
   "status": "proved",
   "theorems": [
    "C44_never_zero",
    "C44_any_seed",
    "C44_distinct"
   ],
   "note": "Also: the state update is injective on non-zero states, and any seed leads to a non-zero state."
  },
  {
   "property": "C45",
   "status": "partial",
   "theorems": [
    "C45_exact_partial",
    "C45_null_refuted"
   ],
   "note": "Proved for every normalised class without the range U+0000-U+0000; refuted for that range (creation panics)."
  },
  {
   "property": "C46",
   "status": "partial",
   "theorems": [
    "C46_uuid",
    "C46_json_pointer",
    "C46_relative_json_pointer",
    "C46_duration",
    "C46_time_partial",
    "C46_time_refuted",
    "C46_ipv4_partial",
    "C46_ipv4_refuted",
    "C46_hostname_partial",
    "C46_hostname_refuted",
    "C46_generated_accepted",
    "C46_placeholder_refuted",
    "C46_email_partial",
    "C46_ipv6",
    "C46_uri",
    "C46_uri_reference",
    "C46_uri_template",
    "C46_strings_only"
   ],
   "note": "uuid, json-pointer, relative-json-pointer and duration: exactly the grammar. time, ipv4 and hostname: every string of the grammar is accepted and the accepted strings are characterised exactly, but they exceed the grammar (signs before digits, several zeros, a hyphen opening a later label), each shown by a refutation. Generated durations, times, dates and date-times are accepted when the clock writes four-digit years; the text written for json-pointer formats never is. email, ipv6, uri, iri, uri-reference and uri-template: exactly characterised relative to the answers of net.ParseIP, mail.ParseAddress and url.Parse, which are arguments; email inherits the excess of hostname and ipv4."
  },
  {
   "property": "C47",
   "status": "partial",
   "theorems": [
    "C47_condition_partial",
    "C47_oneOf_partial",
    "C47_references_partial",
    "C47_reading",
    "C47_valid_partial",
    "C47_negated_partial",
    "C47_valid_refuted"
   ],
   "note": "Proved for every schema of the fragment in SpecFragment.v (types, bounds, multipleOf of integers and of numbers in few binary digits, lengths, patterns, formats, enum, const, items, prefixItems, contains (beside items too, where the two can be merged), properties, patternProperties, required, additionalProperties, size bounds, type lists, and allOf, anyOf and one-branch oneOf over schemas that can be merged) nested no deeper than the maximum parse depth. C47_references_partial: the same for documents of such schemas without combinations whose references name the document or its definitions, recursive ones included, under every reading of references that agrees with the document (C47_reading: one exists). C47_negated_partial: the fragment extended with uniqueItems over items whose equal values are written alike or that are integers or numbers without multipleOf, and with not, where the negated schema decides (SpecNegate.decides) and leaves the other keywords in force. C47_condition_partial and C47_oneOf_partial: if beside simple keywords and oneOf with several branches at the root of a document, where the validator is right about the condition and the branches. Not covered: references beside combinations or to other places, other negations, if and oneOf with several branches below the root, uniqueItems beside prefixItems or contains. Refuted in general: a refused member of a type list becomes null."
  },
  {
   "property": "C48",
   "status": "partial",
   "theorems": [
    "C48_no_panic_partial",
    "C48_empty_types_refuted",
    "C48_many_multiples_refuted"
   ],
   "note": "Proved for every document and fetched document that is tame (no empty type list, sizes within 2^60, number bounds within 2^54, multipleOf values between 1/128 and 2^40 dividing one another), references and remote documents included. The unrestricted statement is refuted: {\"type\": []} and a multipleOf with more than 2^63 multiples panic."
  },
  {
   "property": "C49",
   "status": "partial",
   "theorems": [
    "C49_depth",
    "C49_fetches",
    "C49_string_options",
    "C49_pattern_options_refuted",
    "C49_unmodified_partial",
    "C49_histories_partial",
    "C49_file_names",
    "C49_histories_refuted"
   ],
   "note": "depth, fetch and string options are used; RegexPatternPropertyOptions are ignored (refuted); ParseSchemaFile changes RelativeTo of the caller's options, so a later file resolves its references against the first (refuted); with RelativeTo set nothing is modified; two names of the same file give the same outcome (C49_file_names)"
  },
  {
   "property": "C50",
   "status": "proved",
   "theorems": [
    "C50_same_encoding_rejected",
    "C50_other_encoding_kept"
   ],
   "note": "Both directions, for every generator and every list of excluded values; C22_not_partial says which values a negated schema puts on the list."
  },
  {
   "property": "C51",
   "status": "partial",
   "theorems": [
    "C51_nothing_by_default",
    "C51_hosts_partial",
    "C51_files_partial",
    "C51_empty_hosts_refuted",
    "C51_stdin_refuted"
   ],
   "note": "no flags: nothing is fetched; hosts and schemes respected for -file; refuted: -allow-insecure with an empty host list asks any host; flags are ignored for standard input; redirections as in C40; referenced files are read only with the path flag, and without the outside flag only below the working directory (C51_files_partial)"
  },
  {
   "property": "C52",
   "status": "partial",
   "theorems": [
    "C52_keeps_partial",
    "C52_complete",
    "C52_race_refuted",
    "C52_crash_refuted"
   ],
   "note": "no existing file is changed, at any interruption point, without interference; refuted under a concurrent creation, and an interruption leaves an empty file"
  },
  {
   "property": "C53",
   "status": "partial",
   "theorems": [
    "C53_flags_partial",
    "C53_bypass",
    "C53_zero_refuted",
    "C53_without_flags"
   ],
   "note": "every non-zero flag is used, and without flags the announced values are (C53_without_flags); zero means the library default (refuted)"
  },
  {
   "property": "C54",
   "status": "partial",
   "theorems": [
    "C54_date",
    "C54_date_time_partial",
    "C54_period_partial",
    "C54_date_time_refuted"
   ],
   "note": "date: exactly the grammar (time.Parse modelled for its one layout). date-time and period: every string of the grammar is accepted and the accepted strings are characterised exactly; they exceed the grammar by fields of a sign and one digit (refuted)."
  },
  {
   "property": "C55",
   "status": "partial",
   "theorems": [
    "C55_kept_partial",
    "C55_carried",
    "C55_values_partial",
    "C55_additional_refuted",
    "C55_items_refuted",
    "C55_allOf_refuted"
   ],
   "note": "C55_kept_partial: at every level, for every pair of schema and negated schema allowed by SpecNegate.compatible (no negated multiples, bounds within the range where the program's arithmetic is exact, sizes below 2^31-12, no additionalItems). C55_values_partial: end to end for one negated schema. False in general: additionalProperties false is widened by a negated property, items arrays and additionalItems are lost, allOf of a sub-schema is lost."
  },
  {
   "property": "C56",
   "status": "partial",
   "theorems": [
    "C56_documents_partial",
    "C56_parse_partial",
    "C56_default_partial",
    "C56_unique_items_refuted",
    "C56_position_refuted"
   ],
   "note": "Proved for ParseSchema on every text whose references are plain pointers and whose negated schemas contain no reference and no uniqueItems, with the same for every document that can be fetched, for every options value, world and parse length. The full claim is false: equal uniqueItems on both sides of a negation, and a reference below allOf to a position that does not exist, make it panic. Creating a regular expression generator is an oracle that answers yes or no at parse time; that it can panic too is C45_null_refuted and, for MinUnboundedRepeatCount above MaxUnboundedRepeatCount, C09_options."
  },
  {
   "property": "C57",
   "status": "partial",
   "theorems": [
    "C57_not_partial",
    "C57_nots_partial",
    "C57_oneOf_partial",
    "C57_if_partial",
    "C57_ifs_partial",
    "C57_failure",
    "C57_allOf_nots_partial",
    "C57_allOf_ifs_partial"
   ],
   "note": "Proved for any number of negated schemas, for oneOf with two or more branches and for any number of conditions: the value is the first candidate that is not refused, or the failure text after exactly the granted number of refused candidates, and a refused candidate has something a negated schema asks for, does not satisfy exactly one branch, or changed sides of a condition. Negations and conditions beside allOf and in its branches are covered (C57_allOf_nots_partial, C57_allOf_ifs_partial) when the branches hold no references and no combinations. Missing: references beside the keyword (the reference replaces the node)."
  },
  {
   "property": "C58",
   "status": "partial",
   "theorems": [
    "C58_seed_sum",
    "C58_one_character",
    "C58_distinct_refuted"
   ],
   "note": "Proved: the seed of every string equals the weighted sum of its characters modulo 2^64, and two strings below 2^40 bytes that differ in one character have different seeds. Refuted in general: \"ab\" and \"ca\" give the same seed. Strings that are not valid UTF-8 are not modelled."
  },
  {
   "property": "C59",
   "status": "proved",
   "theorems": [
    "C59_shuffle_permutes",
    "C59_shuffle_onto",
    "C59_choices",
    "C59_choice",
    "C59_choice_onto",
    "C59_choices_onto"
   ],
   "note": "Shuffling is a permutation and reaches every permutation; choosing k gives exactly k elements at different positions, reaches every such selection, and panics exactly outside 0..length; choosing one gives any element and panics only for an empty slice. math/rand Perm is modelled as the loop of the Go library over arbitrary draws."
  },
  {
   "property": "C60",
   "status": "partial",
   "theorems": [
    "C60_enum",
    "C60_boolean",
    "C60_type_list",
    "C60_anyOf",
    "C60_integers",
    "C60_integers_refuted",
    "C60_multiples_partial",
    "C60_multiples_refuted",
    "C60_lengths_partial",
    "C60_lengths_refuted",
    "C60_subsets_partial",
    "C60_subsets_refuted"
   ],
   "note": "Proved for enums, booleans, type lists, anyOf and integers between integer bounds up to 2^46 (C60_enum, C60_boolean, C60_type_list, C60_anyOf, C60_integers); for multiples with allowed neighbours, lengths below maxItems and property sets below maxProperties (C60_multiples_partial, C60_lengths_partial, C60_subsets_partial). RandomInt excludes its upper limit, so the longest array, the fullest object and the outermost multiples never come out (C60_lengths_refuted, C60_subsets_refuted, C60_multiples_refuted), and an exclusive fractional bound cuts off one integer (C60_integers_refuted). Missing: strings, numbers with a fraction, objects with required or pattern properties, arrays with prefixes."
  },
  {
   "property": "C61",
   "status": "partial",
   "theorems": [
    "C61_numbers",
    "C61_never_zero",
    "C61_zero_refuted",
    "C61_recovers",
    "C61_alone",
    "C61_different_refuted",
    "C61_choice",
    "C61_texts_partial"
   ],
   "note": "Proved for every order of accesses by any number of goroutines: numbers below 2^63 (C61_numbers), no zero state when each statement reads the source once (C61_never_zero), every call ends and the next one is the sequential one (C61_recovers, C61_alone), choices and texts stay correct (C61_choice, C61_texts_partial). With two reads per statement the state can become zero for a moment (C61_zero_refuted); different goroutines can be given the same numbers (C61_different_refuted). Weak memory beyond single-word accesses in some order is not modelled; the expressions C09 leaves out are missing from the last part."
  },
  {
   "property": "C62",
   "status": "proved",
   "theorems": [
    "C62_reads",
    "C62_written",
    "C62_parse"
   ],
   "note": "SpecText.v gives the meaning of a text keyword by keyword; the decoder agrees with it on every JSON value. Member names that differ in capitalisation and repeated members are resolved before the model starts."
  },
  {
   "property": "C63",
   "status": "proved",
   "theorems": [
    "C63_every_place",
    "C63_last_error",
    "C63_has_errors"
   ],
   "note": "For every state the parser can be in and every order of the visits. The collection is the Go structure (map of maps) played back from the reports in order. Two places whose texts 'document -> path' coincide share an entry."
  },
  {
   "property": "C64",
   "status": "partial",
   "theorems": [
    "C64_strings",
    "C64_strings_satisfiable_partial",
    "C64_objects",
    "C64_objects_satisfiable",
    "C64_arrays",
    "C64_arrays_satisfiable_partial",
    "C64_satisfiable_refuted"
   ],
   "note": "Exact for strings (C64_strings) and objects (C64_objects), and for arrays up to refused member schemas (C64_arrays); satisfiable objects are always accepted (C64_objects_satisfiable); satisfiable strings without pattern and format, and arrays without contains whose length leaves room for prefixItems, are accepted. Refuted for lengths beside a pattern, contains beside a full prefix or a small minItems, and prefixItems longer than maxItems (C64_satisfiable_refuted)."
  }
 ]
}