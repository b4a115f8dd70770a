{
 "C01": {
  "status": "proved",
  "note": "math/rand Intn is modelled as draw mod n; the range assumption max-min < 2^63 excludes int64 overflow of the difference."
 },
 "C02": {
  "status": "proved",
  "note": "All roundings of binary64 included (Flocq)."
 },
 "C03": {
  "status": "partial",
  "note": "Proved for bounds up to 2^50 (multipleOf up to 2^40), and without multipleOf for every pair of inclusive bounds in the range of int64 beside exclusive bounds below 2^53 (C03_wide_bounds_partial); refuted for bounds beyond int64 and for exclusive bounds of 2^53 (C03_exclusive_refuted)."
 },
 "C04": {
  "status": "partial",
  "note": "Inclusive bounds for all finite schemas; exclusive bounds are strict below 128, and from 128 on the bound itself is generated (C04_exclusive_sharp, up to 2^53), refuted at 1000."
 },
 "C05": {
  "status": "partial",
  "note": "Proved for bounds up to 2^50 and multipleOf up to 2^40."
 },
 "C06": {
  "status": "partial",
  "note": "Proved (multiple and within bounds, strictly for exclusive ones) when multipleOf is at most 5000 steps of 1/2^j, j up to 14, and the bounds are at most 2^19 steps, not tiny, and below 128 when exclusive. Refuted in general: with multipleOf 0.1 rounding to 1e-14 leaves the bounds and the multiples."
 },
 "C07": {
  "status": "partial",
  "note": "Refuted in general; proved for integer keywords with two satisfying integers and for number schemas with room."
 },
 "C26": {
  "status": "proved",
  "note": "Step counters and options below 2^51."
 },
 "C23": {
  "status": "proved",
  "note": "Assumes the text library never returns an empty sentence and the regex generator returns."
 },
 "C24": {
  "status": "proved",
  "note": "Entries are read off the trace the model emits at each reference entry."
 },
 "C25": {
  "status": "proved",
  "note": "Array, object, reference, combination and constrained generators."
 },
 "C27": {
  "status": "proved",
  "note": "The two random streams (per-call source and process-wide source) are explicit; generators and options are immutable values in the model."
 },
 "C28": {
  "status": "partial",
  "note": "Integer options and the bypass flag are used as set (0 counts as unset). Refuted for SuppressFallbackValues=false and for the number/string defaults, which nothing reads."
 },
 "C43": {
  "status": "partial",
  "note": "Re-encoding a schema that came from JSON text and decoding it again gives the same schema when no items keyword holds an array; refuted for items arrays, which the encoder drops. Duplicate and case-variant keys are not modelled."
 },
 "C33": {
  "status": "proved",
  "note": "All finite bounds, any list of nodes; bounds of conjuncts at any allOf depth."
 },
 "C34": {
  "status": "partial",
  "note": "Values compared by JSON text. Nodes with both enum and const excluded (refuted: const is lost)."
 },
 "C35": {
  "status": "partial",
  "note": "Any number of nodes, up to six decimal places and a product of the scaled values up to 2^53; refuted for 2e-7 and 3e-7."
 },
 "C36": {
  "status": "partial",
  "note": "Bounds below 2^31-12 (less 2 for each negation when there are several); refuted for a negated minLength of 2^31, which is dropped silently."
 },
 "C37": {
  "status": "partial",
  "note": "Integer bounds up to 2^50 when integers remain; inclusive negated bounds up to 127 otherwise; refuted at 1000. Negated multiples: the list put in place of the numbers holds no multiple, and only integers within the bounds when integers remain; refuted when no number is left, where bounds and negation are dropped silently."
 },
 "C38": {
  "status": "proved",
  "note": "not{type:T} for every T with non-empty names, on names and on values."
 },
 "C08": {
  "status": "partial",
  "note": "Length bounds and termination for every plain node; refuted for maxLength 0, which is ignored. Lengths are bytes, and characters for ASCII sentences."
 },
 "C11": {
  "status": "partial",
  "note": "For plain nodes with maxItems > 0, no positional items list, default minimum not above maxItems. Refuted for maxItems 0, positional items with maxItems, items:false with a larger minItems."
 },
 "C12": {
  "status": "partial",
  "note": "Positions, contains and the rest for every plain node; contains is refuted under items:false, maxContains is refuted beside prefixItems (C12_maxContains_refuted) and additionalItems:false beside a list of items (C12_additionalItems_refuted)."
 },
 "C13": {
  "status": "partial",
  "note": "By JSON encoding for arrays without positional schemas; refuted for positional schemas."
 },
 "C14": {
  "status": "partial",
  "note": "For every node without reference, combination, condition or negation."
 },
 "C15": {
  "status": "partial",
  "note": "Upper bound and lower bound separately; refuted for maxProperties 0 and for minProperties with additionalProperties:false."
 },
 "C16": {
  "status": "partial",
  "note": "Refuted with patternProperties and minProperties (min_filler keys)."
 },
 "C17": {
  "status": "partial",
  "note": "Refuted for declared names the generator also invents."
 },
 "C18": {
  "status": "partial",
  "note": "Listed values only; validity unless the resource name is taken, refuted by a name collision."
 },
 "C19": {
  "status": "partial",
  "note": "Type lists, inference order, unknown types; a refused listed type stands for null (refuted)."
 },
 "C20": {
  "status": "partial",
  "note": "anyOf and oneOf without sibling $ref or allOf; both together when the oneOf branches hold no combinations themselves. Beside allOf: C32_generated reduces the node to the merged one."
 },
 "C21": {
  "status": "partial",
  "note": "One condition; several conditions refuted."
 },
 "C22": {
  "status": "partial",
  "note": "Negated patterns, formats, constants, enum values and required names are kept out of the generated values, for one negation (C22_not_partial), for all negations of a schema, those collected from allOf branches included (C22_several_partial), and inside the properties a negation looks at (C22_properties_partial); what remains of an enum is given exactly (C22_enum_left_partial); merging keeps negations and exclusions (C22_merge_keeps). Not covered: negated schemas that are themselves references, allOf or negations. required next to the same negated required is refuted."
 },
 "C50": {
  "status": "proved",
  "note": "Both directions, for every generator and every list of excluded values; C22_not_partial says which values a negated schema puts on the list."
 },
 "C39": {
  "status": "partial",
  "note": "Exact for pointers through names and single-schema keywords that end in a name; refuted in general for pointers ending in a keyword (parent returned), through lists (valid index refused, invalid index panics) and through absent keywords (panic). C39_never_panics_partial: any text without digits and without the four keywords whose absence is not checked. C39_no_list_partial: a missing list is refused."
 },
 "C44": {
  "status": "proved",
  "note": "Also: the state update is injective on non-zero states, and any seed leads to a non-zero state."
 },
 "C45": {
  "status": "partial",
  "note": "Proved for every normalised class without the range U+0000-U+0000; refuted for that range (creation panics)."
 },
 "C09": {
  "status": "partial",
  "note": "Proved for anchors at the ends, literals that are characters and classes without reachable surrogates, for every simplifier that keeps the language (the standard library's Simplify is modelled and shown to be one); creation and generation proved panic-free for expressions without '.' and U+0000-U+0000; refuted for surrogates, '.', interior anchors."
 },
 "C10": {
  "status": "partial",
  "note": "Proved for patterns of characters, dots, escapes, classes without '.' and '\\', groups, alternatives, repetition; refuted for [.] and [^.]."
 },
 "C40": {
  "status": "partial",
  "note": "Every request made while parsing, for any schema, references, documents and url library meeting the stated laws, is for an https url (or insecure access is allowed) with a listed host (if there is a list); nothing is asked for when no fetcher is enabled. Refuted: http.Get follows redirections to hosts that are not listed."
 },
 "C41": {
  "status": "partial",
  "note": "Every file read is at or below the working directory unless outside access is allowed (working directories without '#'). Refuted: the allowed-path check is inverted, so a file outside the only allowed path is read and one inside is not; a working directory with '#' in its name makes the parser read a path outside of it. Without allowed paths nothing is ever read."
 },
 "C42": {
  "status": "partial",
  "note": "An id whose document was fetched is never taken from the queue again, the root never is, and the queue empties after a bounded number of rounds if finitely many ids are accepted and no single document exhausts the parser. Every document that an accepted reference names waits in the queue until it is parsed, and when the queue is empty each one was parsed or reported (C42_reference_waits, C42_still_waits, C42_waiting_parsed). Refuted: an id whose fetch fails is taken again."
 },
 "C29": {
  "status": "partial",
  "note": "restored and depth hold for every schema; ends for documents whose references stand outside combinators, negations, conditions and contains, over finitely many document names; refuted in general: {\"not\":{\"not\":{\"$ref\":\"#\"}}} never ends"
 },
 "C30": {
  "status": "partial",
  "note": "reported for every refused node within the depth limit, for oneOf branches left out of the check, for then/else parts or conditions left out, and for property patterns that cannot be understood; errors are kept through the whole parse; refuted for nodes beyond the depth limit and for members of a list of types; of two reports for one place the list shows only the last (C30_overwritten_refuted)"
 },
 "C31": {
  "status": "partial",
  "note": "for documents built without combinations the table of references agrees with the document, part by part (root, definitions and fetched documents), and a local reference to such a part resolves to the generator made from exactly that part; refuted for names with slashes, escapes, properties next to anyOf, members of items lists (registered under prefixItems) and local references read after an inner merge with a remote document"
 },
 "C49": {
  "status": "partial",
  "note": "depth, fetch and string options are used; RegexPatternPropertyOptions are ignored (refuted); ParseSchemaFile changes RelativeTo of the caller's options, so a later file resolves its references against the first (refuted); with RelativeTo set nothing is modified; two names of the same file give the same outcome (C49_file_names)"
 },
 "C51": {
  "status": "partial",
  "note": "no flags: nothing is fetched; hosts and schemes respected for -file; refuted: -allow-insecure with an empty host list asks any host; flags are ignored for standard input; redirections as in C40; referenced files are read only with the path flag, and without the outside flag only below the working directory (C51_files_partial)"
 },
 "C52": {
  "status": "partial",
  "note": "no existing file is changed, at any interruption point, without interference; refuted under a concurrent creation, and an interruption leaves an empty file"
 },
 "C53": {
  "status": "partial",
  "note": "every non-zero flag is used, and without flags the announced values are (C53_without_flags); zero means the library default (refuted)"
 },
 "C47": {
  "status": "partial",
  "note": "Proved for every schema of the fragment in SpecFragment.v (types, bounds, multipleOf of integers and of numbers in few binary digits, lengths, patterns, formats, enum, const, items, prefixItems, contains (beside items too, where the two can be merged), properties, patternProperties, required, additionalProperties, size bounds, type lists, and allOf, anyOf and one-branch oneOf over schemas that can be merged) nested no deeper than the maximum parse depth. C47_references_partial: the same for documents of such schemas without combinations whose references name the document or its definitions, recursive ones included, under every reading of references that agrees with the document (C47_reading: one exists). C47_negated_partial: the fragment extended with uniqueItems over items whose equal values are written alike or that are integers or numbers without multipleOf, and with not, where the negated schema decides (SpecNegate.decides) and leaves the other keywords in force. C47_condition_partial and C47_oneOf_partial: if beside simple keywords and oneOf with several branches at the root of a document, where the validator is right about the condition and the branches. Not covered: references beside combinations or to other places, other negations, if and oneOf with several branches below the root, uniqueItems beside prefixItems or contains. Refuted in general: a refused member of a type list becomes null."
 },
 "C48": {
  "status": "partial",
  "note": "Proved for every document and fetched document that is tame (no empty type list, sizes within 2^60, number bounds within 2^54, multipleOf values between 1/128 and 2^40 dividing one another), references and remote documents included. The unrestricted statement is refuted: {\"type\": []} and a multipleOf with more than 2^63 multiples panic."
 },
 "C46": {
  "status": "partial",
  "note": "uuid, json-pointer, relative-json-pointer and duration: exactly the grammar. time, ipv4 and hostname: every string of the grammar is accepted and the accepted strings are characterised exactly, but they exceed the grammar (signs before digits, several zeros, a hyphen opening a later label), each shown by a refutation. Generated durations, times, dates and date-times are accepted when the clock writes four-digit years; the text written for json-pointer formats never is. email, ipv6, uri, iri, uri-reference and uri-template: exactly characterised relative to the answers of net.ParseIP, mail.ParseAddress and url.Parse, which are arguments; email inherits the excess of hostname and ipv4."
 },
 "C54": {
  "status": "partial",
  "note": "date: exactly the grammar (time.Parse modelled for its one layout). date-time and period: every string of the grammar is accepted and the accepted strings are characterised exactly; they exceed the grammar by fields of a sign and one digit (refuted)."
 },
 "C32": {
  "status": "partial",
  "note": "C32_merged_implies_branches_partial covers branches that can be merged in the sense of SpecMerge.canMerge (no clashing type/pattern/format/uniqueItems, at most one anyOf/oneOf/not/multipleOf, additionalProperties and items only beside branches that name no further properties or positions, and the same for sub-schemas), including allOf inside branches and sub-schemas at any depth. C32_conditions_kept: every if/then/else of every branch is kept. The full statement is false of the code: C32_lost_refuted and C32_overwritten_refuted give branches whose keywords are lost. C32_conflicts_reported: different patterns, formats, lengths or uniqueItems of two branches are reported (of several conflicts at one place the list shown keeps the last, C30_overwritten_refuted). C32_generated: a node with allOf generates exactly what the merged node generates."
 },
 "C55": {
  "status": "partial",
  "note": "C55_kept_partial: at every level, for every pair of schema and negated schema allowed by SpecNegate.compatible (no negated multiples, bounds within the range where the program's arithmetic is exact, sizes below 2^31-12, no additionalItems). C55_values_partial: end to end for one negated schema. False in general: additionalProperties false is widened by a negated property, items arrays and additionalItems are lost, allOf of a sub-schema is lost."
 },
 "C56": {
  "status": "partial",
  "note": "Proved for ParseSchema on every text whose references are plain pointers and whose negated schemas contain no reference and no uniqueItems, with the same for every document that can be fetched, for every options value, world and parse length. The full claim is false: equal uniqueItems on both sides of a negation, and a reference below allOf to a position that does not exist, make it panic. Creating a regular expression generator is an oracle that answers yes or no at parse time; that it can panic too is C45_null_refuted and, for MinUnboundedRepeatCount above MaxUnboundedRepeatCount, C09_options."
 },
 "C57": {
  "status": "partial",
  "note": "Proved for any number of negated schemas, for oneOf with two or more branches and for any number of conditions: the value is the first candidate that is not refused, or the failure text after exactly the granted number of refused candidates, and a refused candidate has something a negated schema asks for, does not satisfy exactly one branch, or changed sides of a condition. Negations and conditions beside allOf and in its branches are covered (C57_allOf_nots_partial, C57_allOf_ifs_partial) when the branches hold no references and no combinations. Missing: references beside the keyword (the reference replaces the node)."
 },
 "C58": {
  "status": "partial",
  "note": "Proved: the seed of every string equals the weighted sum of its characters modulo 2^64, and two strings below 2^40 bytes that differ in one character have different seeds. Refuted in general: \"ab\" and \"ca\" give the same seed. Strings that are not valid UTF-8 are not modelled."
 },
 "C59": {
  "status": "proved",
  "note": "Shuffling is a permutation and reaches every permutation; choosing k gives exactly k elements at different positions, reaches every such selection, and panics exactly outside 0..length; choosing one gives any element and panics only for an empty slice. math/rand Perm is modelled as the loop of the Go library over arbitrary draws."
 },
 "C60": {
  "status": "partial",
  "note": "Proved for enums, booleans, type lists, anyOf and integers between integer bounds up to 2^46 (C60_enum, C60_boolean, C60_type_list, C60_anyOf, C60_integers); for multiples with allowed neighbours, lengths below maxItems and property sets below maxProperties (C60_multiples_partial, C60_lengths_partial, C60_subsets_partial). RandomInt excludes its upper limit, so the longest array, the fullest object and the outermost multiples never come out (C60_lengths_refuted, C60_subsets_refuted, C60_multiples_refuted), and an exclusive fractional bound cuts off one integer (C60_integers_refuted). Missing: strings, numbers with a fraction, objects with required or pattern properties, arrays with prefixes."
 },
 "C61": {
  "status": "partial",
  "note": "Proved for every order of accesses by any number of goroutines: numbers below 2^63 (C61_numbers), no zero state when each statement reads the source once (C61_never_zero), every call ends and the next one is the sequential one (C61_recovers, C61_alone), choices and texts stay correct (C61_choice, C61_texts_partial). With two reads per statement the state can become zero for a moment (C61_zero_refuted); different goroutines can be given the same numbers (C61_different_refuted). Weak memory beyond single-word accesses in some order is not modelled; the expressions C09 leaves out are missing from the last part."
 },
 "C62": {
  "status": "proved",
  "note": "SpecText.v gives the meaning of a text keyword by keyword; the decoder agrees with it on every JSON value. Member names that differ in capitalisation and repeated members are resolved before the model starts."
 },
 "C63": {
  "status": "proved",
  "note": "For every state the parser can be in and every order of the visits. The collection is the Go structure (map of maps) played back from the reports in order. Two places whose texts 'document -> path' coincide share an entry."
 },
 "C64": {
  "status": "partial",
  "note": "Exact for strings (C64_strings) and objects (C64_objects), and for arrays up to refused member schemas (C64_arrays); satisfiable objects are always accepted (C64_objects_satisfiable); satisfiable strings without pattern and format, and arrays without contains whose length leaves room for prefixItems, are accepted. Refuted for lengths beside a pattern, contains beside a full prefix or a small minItems, and prefixItems longer than maxItems (C64_satisfiable_refuted)."
 }
}