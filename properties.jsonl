{"id": "C01", "title": "Random integers stay in the requested half-open range", "statement": "RandUtil.RandomInt(min,max) returns min when min = max, a value v with min <= v < max when min < max, and panics exactly when max < min; every v of the range is returned for some state of the source.", "quantifier": "all integers min, max and all states of the random source", "why_tests_cant": "A test samples a few seeds; the bound must hold for every seed and every pair of bounds.", "anchors": ["rand/random.go:RandUtil.RandomInt"]}
{"id": "C02", "title": "Random floats never leave the closed interval", "statement": "RandUtil.RandomFloat(min,max), computed in IEEE binary64 with every rounding, returns a finite value v with min <= v <= max for all finite min <= max whose difference does not overflow.", "quantifier": "all binary64 pairs min <= max and all 2^53 values of the underlying uniform draw", "why_tests_cant": "Rounding errors that push a value past a bound appear only for particular bit patterns that sampling does not hit.", "anchors": ["rand/random.go:RandUtil.RandomFloat"]}
{"id": "C03", "title": "Generated integers respect minimum/maximum/exclusive bounds", "statement": "If a schema of type integer without multipleOf is accepted, every generated value is an integer satisfying minimum, maximum, exclusiveMinimum and exclusiveMaximum of the schema.", "quantifier": "all combinations of the four (binary64) bounds and all random draws", "why_tests_cant": "Needs every combination of open/closed/missing bounds with every rounding outcome.", "anchors": ["number.go:parseNumber", "number.go:numberGenerator.Generate"]}
{"id": "C04", "title": "Generated numbers respect minimum/maximum and exclusive bounds", "statement": "If a schema of type number without multipleOf is accepted, every generated value satisfies minimum and maximum, and is strictly inside exclusiveMinimum/exclusiveMaximum.", "quantifier": "all combinations of the four binary64 bounds and all random draws", "why_tests_cant": "The epsilon used for exclusive bounds vanishes by rounding for large bounds; only a proof over all floats finds the exact frontier.", "anchors": ["number.go:parseNumber", "number.go:infinitesimal", "number.go:numberGenerator.Generate"]}
{"id": "C05", "title": "multipleOf is honoured for integers", "statement": "If a schema of type integer with multipleOf m is accepted, every generated value is a multiple of m and lies within the bounds.", "quantifier": "all m, all bounds and all random draws", "why_tests_cant": "Number of (m, min, max, draw) combinations is unbounded and float division can mis-round the first multiple.", "anchors": ["number.go:generateMultipleOf", "number.go:countMultiplesInRange", "internal/util/util.go:Round"]}
{"id": "C06", "title": "multipleOf is honoured for numbers", "statement": "If a schema of type number with multipleOf m is accepted, every generated value is a multiple of m and lies within the bounds.", "quantifier": "all m, all bounds and all random draws", "why_tests_cant": "Depends on arithmetic over an infinite domain.", "anchors": ["number.go:generateMultipleOf", "number.go:roundToInfinitesimal"]}
{"id": "C07", "title": "Satisfiable numeric schemas are accepted", "statement": "A numeric schema for which some value satisfies all its numeric keywords is never rejected at parse time.", "quantifier": "all combinations of bounds and multipleOf", "why_tests_cant": "Rejections happen on isolated boundary combinations.", "anchors": ["number.go:parseNumber", "number.go:countMultiplesInRange"]}
{"id": "C08", "title": "Generated strings respect minLength/maxLength", "statement": "A string generated for a schema with minLength/maxLength and no pattern or format has a length between them, and the generation loop terminates.", "quantifier": "all length bounds and all sequences of sentences produced by the text source", "why_tests_cant": "The text source is random; the loop must terminate and truncate for every sequence.", "anchors": ["string.go:parseString", "string.go:stringGenerator.Generate"]}
{"id": "C09", "title": "Strings generated from a pattern match the pattern", "statement": "The string produced for a pattern belongs to the language of the regular expression, for every expression without interior anchors.", "quantifier": "all regular-expression syntax trees of any size and all random draws", "why_tests_cant": "Needs induction over all regular expressions.", "anchors": ["internal/regen/internal_generator.go", "internal/regen/char_class.go", "regex.go:newRegexGenerator"]}
{"id": "C10", "title": "Dot-substitution in patterns only narrows the language", "statement": "Rewriting a pattern to suppress random bytes yields a pattern whose language is included in the language of the original pattern.", "quantifier": "all pattern strings", "why_tests_cant": "The rewriting is textual; escapes and classes give unboundedly many contexts.", "anchors": ["regex.go:newRegexGenerator"]}
{"id": "C11", "title": "Generated arrays respect minItems/maxItems", "statement": "Every array generated for an accepted schema has at least minItems and at most maxItems elements (unless generation was cut off).", "quantifier": "all bounds, tuple lengths, contains settings, options and random draws", "why_tests_cant": "Interaction of five parameters and randomness.", "anchors": ["array.go:parseArray", "array.go:arrayGenerator.Generate"]}
{"id": "C12", "title": "Array positions come from the right sub-schemas", "statement": "In a generated array the first elements come from prefixItems/items tuple positionally, at least minContains elements come from contains, and all the others from items (or additionalItems).", "quantifier": "all tuple lengths, bounds and random draws", "why_tests_cant": "Unbounded arrays and random lengths.", "anchors": ["array.go:arrayGenerator.Generate", "array.go:parseTupleGenerator"]}
{"id": "C13", "title": "uniqueItems yields pairwise distinct elements", "statement": "With uniqueItems:true the elements of a generated array are pairwise different, or the failure marker was emitted.", "quantifier": "all item generators, lengths, retry budgets and random draws", "why_tests_cant": "Duplicates only show up for rare draws.", "anchors": ["array.go:arrayGenerator.generateConsideringUnique"]}
{"id": "C14", "title": "Required properties are always present", "statement": "Every object generated for an accepted schema contains every key of required (unless generation was cut off).", "quantifier": "all schemas, options and random draws", "why_tests_cant": "Random subset selection must not lose a key for any draw.", "anchors": ["object.go:objectGenerator.Generate"]}
{"id": "C15", "title": "Generated objects respect minProperties/maxProperties", "statement": "Every generated object has at least minProperties and at most maxProperties distinct keys.", "quantifier": "all property sets, bounds, options and random draws", "why_tests_cant": "Key collisions and random selection give unboundedly many cases.", "anchors": ["object.go:objectGenerator.Generate", "object.go:parseObject"]}
{"id": "C16", "title": "additionalProperties:false admits no undeclared key", "statement": "With additionalProperties:false every key of a generated object is declared in properties or required or was generated from a patternProperties pattern.", "quantifier": "all property sets, bounds, options and random draws", "why_tests_cant": "Must hold for every random path through the generator.", "anchors": ["object.go:objectGenerator.Generate"]}
{"id": "C17", "title": "Property values come from their sub-schema", "statement": "In a generated object the value of a declared property was generated from the sub-schema of that property.", "quantifier": "all schemas and random draws", "why_tests_cant": "Quantifies over every key and draw.", "anchors": ["object.go:objectGenerator.Generate"]}
{"id": "C18", "title": "enum and const only yield listed, valid values", "statement": "A value generated for enum is one of the listed values and validates against the whole schema node; for const it is the constant.", "quantifier": "all enum lists, all validators and random draws", "why_tests_cant": "Quantifies over validators and draws.", "anchors": ["enum.go:parseEnum", "const.go:constGenerator"]}
{"id": "C19", "title": "Type lists and unknown types pick a listed type", "statement": "A value generated for a type list was generated by the generator of one of the listed types, and a node without a type is treated by the documented inference order.", "quantifier": "all type lists, nodes and random draws", "why_tests_cant": "All subsets of types and all draws.", "anchors": ["multiple_type.go", "parse.go:inferType"]}
{"id": "C20", "title": "anyOf/oneOf values validate", "statement": "A value generated for anyOf comes from one of the branches merged with the base schema; a value generated for oneOf with several branches validates against exactly one compiled branch, unless the failure marker is returned or generation was cut off.", "quantifier": "all branch lists, validators, retry budgets and random draws", "why_tests_cant": "Retry loops with random regeneration.", "anchors": ["combination.go:combinationGenerator.Generate", "combination.go:oneOfConstraint.Apply"]}
{"id": "C21", "title": "if/then/else is honoured", "statement": "A value generated under if/then/else conditions comes from the then-branch and satisfies every condition it was generated for, or from the else-branch and satisfies none, or the failure marker is returned.", "quantifier": "all numbers of conditions, validators, retry budgets and random draws", "why_tests_cant": "Order of conditions is random and later ones can undo earlier ones.", "anchors": ["if.go:multipleIfConstraints.Apply", "if.go:ifConstraint.AttemptToSatisfy"]}
{"id": "C22", "title": "Negated values, patterns, formats and properties never appear", "statement": "A value generated under not-constraints (excluded values, regexes, formats, properties) violates none of them, or is the failure marker, or generation was cut off.", "quantifier": "all constraint collections, matchers, retry budgets and random draws", "why_tests_cant": "Random retries; must hold for every history of failed attempts.", "anchors": ["constraint.go:multiConstraint.Apply", "constraint.go:constraintCollection.Compile"]}
{"id": "C23", "title": "Generation terminates on every schema", "statement": "RootGenerator.Generate terminates for every parsed schema, however cyclic its references are and whatever the random source returns, with or without the cyclic-reference check.", "quantifier": "all generator graphs, option values and random sources", "why_tests_cant": "Termination on all inputs is not testable.", "anchors": ["reference.go:referenceGenerator.Generate", "reference_hander.go:referenceResolver", "root.go:RootGenerator.Generate"]}
{"id": "C24", "title": "Reference stack discipline", "statement": "During generation no reference is entered while it is still open unless the check is bypassed, at most MaximumReferenceDepth+1 references are open at once, and the stack is unchanged after each generation step.", "quantifier": "all generator graphs, options and random sources", "why_tests_cant": "Invariant over all execution prefixes.", "anchors": ["reference.go:referenceGenerator.Generate", "reference_hander.go:referenceResolver"]}
{"id": "C25", "title": "Past the cutoff no more structure is produced", "statement": "Once the step counter exceeds CutoffGenerationSteps, arrays, objects, references and retries stop: each yields an empty result without generating children; the step counter never decreases.", "quantifier": "all generator graphs, options and random sources", "why_tests_cant": "Invariant over all executions.", "anchors": ["generator.go:GeneratorOptions.ShouldCutoff", "array.go", "object.go", "reference.go", "constraint.go"]}
{"id": "C26", "title": "Retry budget is positive, bounded and antitone", "statement": "ScaledRetryBudget(base) is at least 1, at most max(1,base), equals base below the minimise threshold, is 1 past the cutoff and never grows as complexity grows.", "quantifier": "all option values, base values and complexities (binary64 arithmetic)", "why_tests_cant": "Float rounding across an infinite domain.", "anchors": ["generator.go:GeneratorOptions.ScaledRetryBudget"]}
{"id": "C27", "title": "Generate calls are independent", "statement": "Generate never modifies the caller's options or the generator: the n-th call behaves as a first call with the same options and the then-current random source.", "quantifier": "all call histories", "why_tests_cant": "Histories are unbounded.", "anchors": ["generator.go:withGeneratorOptionsDefaults", "root.go:RootGenerator.Generate"]}
{"id": "C28", "title": "Generator options set by the caller take effect", "statement": "Every option the caller sets is the one used by generation; unset options get their documented default.", "quantifier": "all option values", "why_tests_cant": "All combinations of option values.", "anchors": ["generator.go:withGeneratorOptionsDefaults", "internal/util/util.go:GetInt", "internal/util/util.go:GetBool"]}
{"id": "C29", "title": "Parsing is bounded by MaxParseDepth and terminates", "statement": "Parsing any schema terminates and never nests deeper than MaxParseDepth; the depth counter and the current path are restored after each node.", "quantifier": "all schemas of any size, with any references", "why_tests_cant": "Termination and balance over all inputs.", "anchors": ["parse.go:parseNode", "parse.go:parseSchemaNode", "reference_hander.go:ParseNodeInScope", "not.go:parseNot"]}
{"id": "C30", "title": "Unsupported or invalid sub-schemas are reported", "statement": "If a sub-schema could not be turned into a generator, the parse result records an error for its path; errors are never lost once recorded.", "quantifier": "all schemas and parse histories", "why_tests_cant": "Every failing position in every schema.", "anchors": ["error.go:errorCollection", "parse.go:parseNode", "object.go:parseProperties"]}
{"id": "C31", "title": "A local $ref generates what its target generates", "statement": "A reference to a path of the document resolves to the generator that was registered when the node at that path was parsed, and behaves exactly as it.", "quantifier": "all schemas and all registered paths", "why_tests_cant": "All nestings of paths.", "anchors": ["reference.go:parseReference", "reference_hander.go:AddReference", "reference_hander.go:Lookup"]}
{"id": "C32", "title": "allOf yields values satisfying every branch", "statement": "For ref-free branches, a value satisfying the merged node's numeric, string, array, object, enum and const keywords satisfies those of each branch.", "quantifier": "all nodes and values", "why_tests_cant": "All pairs of schemas.", "anchors": ["all_of.go:parseAllOf", "merge.go:mergeSchemaNodesIncludingBase"]}
{"id": "C33", "title": "Merging numeric and length bounds is exact and order-independent", "statement": "Merging bounds gives exactly the conjunction: a value satisfies the merged bounds iff it satisfies the bounds of all nodes; the result does not depend on the order of branches.", "quantifier": "all lists of reference-free nodes, with allOf branches nested to any depth", "why_tests_cant": "All lists and permutations.", "anchors": ["merge.go:mergeNumber", "merge.go:mergeString", "internal/util/util.go:MaxFloatPtr"]}
{"id": "C34", "title": "Merged enum/const is the intersection", "statement": "The values allowed after merging enum/const of several nodes are exactly those allowed by each node, and an empty intersection is reported.", "quantifier": "all lists of enum/const nodes", "why_tests_cant": "All lists of values.", "anchors": ["merge.go:mergeEnumAndConst", "merge.go:collectEnumValues"]}
{"id": "C35", "title": "Merged multipleOf is a common multiple", "statement": "After merging multipleOf a and b, every multiple of the result is a multiple of both a and b.", "quantifier": "all decimals a and b", "why_tests_cant": "Infinite domain.", "anchors": ["internal/util/util.go:FindHcf", "internal/util/util.go:countDecimalPlaces", "merge.go:mergeNumber"]}
{"id": "C36", "title": "Negated integer bounds exclude the negated range", "statement": "After applying not{min..,max..} to integer bounds (lengths, items, properties), every value allowed by the result was allowed before and is outside the negated range, unless an error is recorded.", "quantifier": "all optional bounds", "why_tests_cant": "All relative positions of two intervals with missing ends.", "anchors": ["not.go:resolveBoundsInt"]}
{"id": "C37", "title": "Negated number bounds exclude the negated range", "statement": "After applying not{minimum/maximum/exclusive...} to number bounds, every value allowed by the result was allowed before and is outside the negated range, unless an error is recorded.", "quantifier": "all optional bounds, inclusive or exclusive", "why_tests_cant": "All relative positions of two intervals.", "anchors": ["not.go:resolveBoundsFloat64"]}
{"id": "C38", "title": "Negated types are removed", "statement": "After applying not{type:T} the remaining types are those allowed before minus T (integer is removed with number); if none remains an error is recorded.", "quantifier": "all type lists", "why_tests_cant": "All pairs of subsets of types.", "anchors": ["not.go:resolveType"]}
{"id": "C39", "title": "Reference path resolution finds the addressed node", "statement": "Resolving a JSON pointer in a schema returns exactly the addressed sub-schema or an error, and never panics.", "quantifier": "all schemas and pointers", "why_tests_cant": "All trees and paths.", "anchors": ["reference_path.go:resolveSubReferencePath", "reference_path.go:resolveReferenceSlice"]}
{"id": "C40", "title": "External documents are fetched only when policy allows (HTTP)", "statement": "A document is fetched over HTTP only if its URL is https (or insecure access was allowed) and its host is in the allowed hosts when that list is not empty.", "quantifier": "all URLs, options and sequences of references", "why_tests_cant": "Security policy over all inputs.", "anchors": ["fetchers.go:httpDocumentFetcher", "document.go:resolveDocumentRef"]}
{"id": "C41", "title": "External documents are read only when policy allows (files)", "statement": "A file is read only if it lies inside the working directory (unless outside access was allowed) and inside one of the allowed paths when that list is set.", "quantifier": "all paths, options and sequences of references", "why_tests_cant": "Security policy over all inputs.", "anchors": ["fetchers.go:fileSystemDocumentFetcher"]}
{"id": "C42", "title": "Each external document is parsed at most once and the queue drains", "statement": "However documents refer to each other, each document id is dequeued at most once and processing the queue terminates.", "quantifier": "all reference graphs between documents and all discovery orders", "why_tests_cant": "Histories of a worklist.", "anchors": ["document.go:documentResolver", "parse.go:ParseSchema"]}
{"id": "C43", "title": "Schema (de)serialisation keeps the meaning", "statement": "Decoding a schema, encoding it and decoding it again gives the same schema node, including const:null, items:false and additionalProperties:false.", "quantifier": "all schema nodes", "why_tests_cant": "All trees.", "anchors": ["json.go"]}
{"id": "C44", "title": "The regex generator's PRNG never degenerates", "statement": "From a non-zero state the xorshift generator never reaches the zero state and all its outputs are in [0, 2^63).", "quantifier": "all 64-bit states and numbers of steps", "why_tests_cant": "2^64 states.", "anchors": ["internal/regen/rng.go"]}
{"id": "C45", "title": "Character-class sampling is exact", "statement": "Indexing a character class yields exactly the runes of the class: every index below the size gives a member, every member (other than U+0000) has exactly one index.", "quantifier": "all normalised range lists", "why_tests_cant": "All classes.", "anchors": ["internal/regen/char_class.go"]}
{"id": "C46", "title": "Built-in format validators decide their format", "statement": "The validators for ipv4, uuid, json-pointer, relative-json-pointer, duration, time and hostname accept exactly the strings of their grammar; those for email, ipv6, uri, uri-reference and uri-template accept exactly the strings of theirs, given what the Go library says about IP addresses, mail addresses and URLs; and generated durations/times are accepted.", "quantifier": "all strings", "why_tests_cant": "All strings.", "anchors": ["internal/jsonschema/formats.go", "string.go:generateFormat"]}
{"id": "C47", "title": "Generated data validates against its schema", "statement": "For every accepted schema of the supported fragment (type, numeric bounds, length bounds, enum, const, items, prefixItems, min/maxItems, properties, required, additionalProperties, min/maxProperties, type lists, anyOf), every generated value is valid against the schema, unless a give-up marker or a cutoff occurred.", "quantifier": "all schemas of the fragment, of any depth, all options and random sources", "why_tests_cant": "The headline promise of the library: for every schema and draw.", "anchors": ["parse.go", "generator.go", "object.go", "array.go", "number.go", "string.go"]}
{"id": "C48", "title": "Parsing and generation never panic on accepted schemas", "statement": "If ParseSchema succeeds, Generate does not panic, for any random source and options with non-negative values.", "quantifier": "all schemas and random sources", "why_tests_cant": "Every partial operation on every input.", "anchors": ["multiple_type.go", "rand/random.go", "array.go", "object.go"]}
{"id": "C49", "title": "Option handling of the parser", "statement": "ParseSchema uses the options the caller gives and does not modify them.", "quantifier": "all option values and call histories", "why_tests_cant": "Histories.", "anchors": ["parse.go:withDefaultParseOptions", "parse.go:ParseSchemaFile"]}
{"id": "C50", "title": "JSON-level exclusions compare whole values", "statement": "Excluded values (not/const, not/enum) are compared by their JSON encoding: a generated value with the same encoding is rejected and a value with a different encoding is not.", "quantifier": "all values", "why_tests_cant": "All JSON trees.", "anchors": ["constraint.go:constraintCollection.Compile", "not.go:notApplyConst", "not.go:notApplyEnum"]}
{"id": "C51", "title": "The command line tool fetches only what its flags allow", "statement": "Without fetch flags the tool fetches nothing; with them, every request is https or -allow-insecure is given, and goes to a host listed in -allowed-hosts; with an empty list http and https resolution fails, as the help text says; the flags apply wherever the schema is read from.", "quantifier": "all flags, schemas, files and standard inputs", "why_tests_cant": "Security policy over all inputs.", "anchors": ["cli/cli.go:getHttpDocumentFetcherOptionsFromFlags", "cli/cli.go:getFileSystemDocumentFetcherOptionsFromFlags", "cli/cli.go:main"]}
{"id": "C52", "title": "The command line tool never overwrites a file and never leaves a partial one", "statement": "Writing the output changes no file that existed, whatever other processes do and wherever the tool is interrupted; afterwards the output file is absent or complete.", "quantifier": "all file system contents, interleavings with other processes and interruption points", "why_tests_cant": "Schedules and crash points.", "anchors": ["cli/cli.go:writeFile"]}
{"id": "C53", "title": "The generation flags of the command line tool take effect", "statement": "Each generation flag sets the option of the same name to the value given.", "quantifier": "all flag values", "why_tests_cant": "All values.", "anchors": ["cli/cli.go:main", "generator.go:withGeneratorOptionsDefaults"]}
{"id": "C54", "title": "Date, date-time and period validators decide their format", "statement": "The validators used for the formats date, date-time and period accept exactly the strings of RFC 3339 section 5.6 and appendix A, including month lengths, leap years and leap seconds.", "quantifier": "all strings", "why_tests_cant": "All strings; leap years and leap seconds across zones are rare combinations.", "anchors": ["internal/jsonschema/formats.go:isDate", "internal/jsonschema/formats.go:isDateTime", "internal/jsonschema/formats.go:isPeriod"]}
{"id": "C55", "title": "A negation leaves the other keywords of its schema in force", "statement": "Adding \"not\" to a schema never makes it generate a value that breaks one of its other keywords: what is generated for a schema with a negation is valid for the schema without it.", "quantifier": "all schemas with a negation and all generated values", "why_tests_cant": "All combinations of keywords beside and under the negation.", "anchors": ["not.go:parseNot", "not.go:notMerge", "not.go:notApplyNumberAndInteger", "not.go:notApplyObject", "not.go:notApplyArray", "not.go:notMergeSubNode"]}
{"id": "C56", "title": "Parsing a schema never panics", "statement": "For every schema text, every options value and every answer of the file system and the network, ParseSchema returns a generator, errors or both; it never panics.", "quantifier": "all schema texts, options, fetched documents and parse lengths", "why_tests_cant": "Every combination of keywords, references and documents.", "anchors": ["parse.go:ParseSchema", "reference_path.go:resolveSubReferencePath", "not.go:resolveBool", "document.go:ParseNextDocument"]}
{"id": "C57", "title": "A failure text means that every attempt failed", "statement": "For not, oneOf and if, candidates are generated one after another and the first acceptable one is the value; the failure text is returned only when as many candidates as the retry budget grants were all refused, and a candidate is refused only for a reason the keyword gives.", "quantifier": "all schemas with not, oneOf or if, all options, random sources and validators", "why_tests_cant": "All random sequences; a test sees one sequence and cannot tell a candidate refused without reason from bad luck.", "anchors": ["constraint.go:multiConstraint.Apply", "constraint.go:constraintCollection.Compile", "combination.go:oneOfConstraint.Apply", "combination.go:constrainedGenerator.Generate", "if.go:multipleIfConstraints.Apply", "if.go:AttemptToSatisfyIfStatement"]}
{"id": "C58", "title": "A string seed becomes a fixed number, and one changed character changes it", "statement": "Creating a generator from a string seed uses the sum of the string's characters, each multiplied by one more than its byte offset, as a 64-bit integer; so the same string always stands for the same seed, two strings that differ in a single character never share one, and different strings are meant to give different seeds.", "quantifier": "every string of characters (for one changed character: every string below 2^40 bytes, every position, every pair of characters)", "why_tests_cant": "Collisions and wrap-around depend on the whole string; a unit test sees a few strings.", "anchors": ["rand/random.go: NewRandUtilFromString"]}
{"id": "C59", "title": "Choosing and shuffling lose nothing and favour nothing out of reach", "statement": "Shuffling a slice rearranges it: every element stays exactly as often as before, and every arrangement is possible. Choosing k strings gives exactly k elements from different positions, any such selection in any order is possible, and it panics exactly when k is negative or more than the slice holds. Choosing one gives an element of the slice, any of them, and panics only for an empty slice.", "quantifier": "every slice, every number of choices, every sequence of random draws; for the possibility parts, every target arrangement", "why_tests_cant": "Reachability of every arrangement and the absence of repetitions range over all random sources.", "anchors": ["rand/random.go: Shuffle, StringChoiceMultiple, StringChoice, Choice"]}
{"id": "C60", "title": "Whatever the schema allows can come out", "statement": "Generation leaves nothing out: for each value, length or choice of properties that a schema allows there is a random source under which it comes out. This covers every member of an enum, both booleans, every type of a type list, every branch of an anyOf, every integer between two bounds, every allowed multiple, every number of items from minItems to maxItems and every set of optional properties from minProperties to maxProperties.", "quantifier": "all schemas of these kinds, all allowed values, lengths and property sets, and for the negative results all random sources", "why_tests_cant": "A value that never comes out is invisible to tests that run the generator, since any number of runs may simply have missed it.", "anchors": ["enum.go:enumGenerator.Generate", "boolean.go:booleanGenerator.Generate", "multiple_type.go:multipleTypeGenerator.Generate", "combination.go:combinationGenerator.Generate", "number.go:parseNumber", "number.go:generateMultipleOf", "array.go:arrayGenerator.Generate", "object.go:objectGenerator.Generate", "rand/random.go: RandomInt"]}
{"id": "C61", "title": "Goroutines may share the source of a pattern generator", "statement": "Several goroutines may draw from the random source of one pattern generator at the same time, as its documentation says: every number returned is a non-negative 63-bit number, the source never gets stuck, a goroutine always finishes its call, one that is alone gets the sequential numbers, and the texts generated still match the pattern.", "quantifier": "all seeds, any number of goroutines, all orders of their accesses to the source, both ways of compiling a statement that reads the source twice", "why_tests_cant": "Schedules: a test runs one interleaving among a number that grows exponentially, and the harmful ones need particular states.", "anchors": ["internal/regen/rng.go: xorShift64Source.Int63", "internal/regen/internal_generator.go", "internal/regen/regen.go: GeneratorArgs.rng"]}
{"id": "C62", "title": "A schema text means what its keywords say", "statement": "A text is accepted as a schema exactly when each of its members has a value of the kind its keyword asks for, at every depth, and each keyword is then read from the member of that name: lengths and counts as whole numbers of 64 bits, bounds as numbers a float64 can hold, null as absent except for const, false and true where a schema may stand, enum and const values unchanged. What the program writes for a schema is read back as that schema.", "quantifier": "every JSON value, every schema", "why_tests_cant": "Exchanged keywords are invisible to round trips, and each member interacts with its value's kind; the texts are unbounded.", "anchors": ["json.go:schemaNode.UnmarshalJSON", "json.go:multipleType.UnmarshalJSON", "json.go:itemsData.UnmarshalJSON", "json.go:schemaNodeOrFalse.UnmarshalJSON", "parse.go:schemaNode", "parse.go:ParseSchema"]}
{"id": "C63", "title": "The list of errors shows every place that failed", "statement": "After parsing, HasErrors is true exactly when something was reported, and CollectErrors has an entry for every document and path something was reported for and no other; the entry holds the error reported last for it.", "quantifier": "all schemas and parse histories, every order in which Go visits its maps", "why_tests_cant": "The order of map iteration is chosen at random by the runtime, and reports come from every place of every schema.", "anchors": ["error.go:errorCollection.AddErrorWithSubpath", "error.go:errorCollection.HasErrors", "error.go:errorCollection.CollectErrors"]}
{"id": "C64", "title": "Consistent string, object and array schemas are accepted", "statement": "A schema of type string, object or array without combinations is accepted exactly when its size keywords go together, and whenever some length or some set of property names satisfies its size keywords, required and additionalProperties it is accepted, unless the schema of a member is refused.", "quantifier": "all plain schemas of these types, options, documents and parser states within the depth limit", "why_tests_cant": "The combinations of keywords are unbounded in number and value; a wrong comparison shows only at the boundary of one of them.", "anchors": ["string.go:parseString", "object.go:parseObject", "array.go:parseArray", "assert.go:assertLowerUpperBound"]}
