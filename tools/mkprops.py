#!/usr/bin/env python3
# Writes /verif/properties.jsonl from the table below.
import json
P = []
def p(title, statement, quantifier, why, anchors):
    P.append(dict(id="C%02d" % (len(P)+1), title=title, statement=statement, quantifier=quantifier,
                  why_tests_cant=why, anchors=anchors))

p("Random integers stay in the requested half-open range",
  "RandUtil.RandomInt(min,max) returns min when min = max, a value v with min <= v < max when min < max, and panics exactly when max < min; every v of the range is returned for some state of the source.",
  "all integers min, max and all states of the random source",
  "A test samples a few seeds; the bound must hold for every seed and every pair of bounds.",
  ["rand/random.go:RandUtil.RandomInt"])
p("Random floats never leave the closed interval",
  "RandUtil.RandomFloat(min,max), computed in IEEE binary64 with every rounding, returns a finite value v with min <= v <= max for all finite min <= max whose difference does not overflow.",
  "all binary64 pairs min <= max and all 2^53 values of the underlying uniform draw",
  "Rounding errors that push a value past a bound appear only for particular bit patterns that sampling does not hit.",
  ["rand/random.go:RandUtil.RandomFloat"])
p("Generated integers respect minimum/maximum/exclusive bounds",
  "If a schema of type integer without multipleOf is accepted, every generated value is an integer satisfying minimum, maximum, exclusiveMinimum and exclusiveMaximum of the schema.",
  "all combinations of the four (binary64) bounds and all random draws",
  "Needs every combination of open/closed/missing bounds with every rounding outcome.",
  ["number.go:parseNumber", "number.go:numberGenerator.Generate"])
p("Generated numbers respect minimum/maximum and exclusive bounds",
  "If a schema of type number without multipleOf is accepted, every generated value satisfies minimum and maximum, and is strictly inside exclusiveMinimum/exclusiveMaximum.",
  "all combinations of the four binary64 bounds and all random draws",
  "The epsilon used for exclusive bounds vanishes by rounding for large bounds; only a proof over all floats finds the exact frontier.",
  ["number.go:parseNumber", "number.go:infinitesimal", "number.go:numberGenerator.Generate"])
p("multipleOf is honoured for integers",
  "If a schema of type integer with multipleOf m is accepted, every generated value is a multiple of m and lies within the bounds.",
  "all m, all bounds and all random draws",
  "Number of (m, min, max, draw) combinations is unbounded and float division can mis-round the first multiple.",
  ["number.go:generateMultipleOf", "number.go:countMultiplesInRange", "internal/util/util.go:Round"])
p("multipleOf is honoured for numbers",
  "If a schema of type number with multipleOf m is accepted, every generated value is a multiple of m and lies within the bounds.",
  "all m, all bounds and all random draws",
  "Depends on arithmetic over an infinite domain.",
  ["number.go:generateMultipleOf", "number.go:roundToInfinitesimal"])
p("Satisfiable numeric schemas are accepted",
  "A numeric schema for which some value satisfies all its numeric keywords is never rejected at parse time.",
  "all combinations of bounds and multipleOf",
  "Rejections happen on isolated boundary combinations.",
  ["number.go:parseNumber", "number.go:countMultiplesInRange"])
p("Generated strings respect minLength/maxLength",
  "A string generated for a schema with minLength/maxLength and no pattern or format has a length between them, and the generation loop terminates.",
  "all length bounds and all sequences of sentences produced by the text source",
  "The text source is random; the loop must terminate and truncate for every sequence.",
  ["string.go:parseString", "string.go:stringGenerator.Generate"])
p("Strings generated from a pattern match the pattern",
  "The string produced for a pattern belongs to the language of the regular expression, for every expression without interior anchors.",
  "all regular-expression syntax trees of any size and all random draws",
  "Needs induction over all regular expressions.",
  ["internal/regen/internal_generator.go", "internal/regen/char_class.go", "regex.go:newRegexGenerator"])
p("Dot-substitution in patterns only narrows the language",
  "Rewriting a pattern to suppress random bytes yields a pattern whose language is included in the language of the original pattern.",
  "all pattern strings",
  "The rewriting is textual; escapes and classes give unboundedly many contexts.",
  ["regex.go:newRegexGenerator"])
p("Generated arrays respect minItems/maxItems",
  "Every array generated for an accepted schema has at least minItems and at most maxItems elements (unless generation was cut off).",
  "all bounds, tuple lengths, contains settings, options and random draws",
  "Interaction of five parameters and randomness.",
  ["array.go:parseArray", "array.go:arrayGenerator.Generate"])
p("Array positions come from the right sub-schemas",
  "In a generated array the first elements come from prefixItems/items tuple positionally, at least minContains elements come from contains, and all the others from items (or additionalItems).",
  "all tuple lengths, bounds and random draws",
  "Unbounded arrays and random lengths.",
  ["array.go:arrayGenerator.Generate", "array.go:parseTupleGenerator"])
p("uniqueItems yields pairwise distinct elements",
  "With uniqueItems:true the elements of a generated array are pairwise different, or the failure marker was emitted.",
  "all item generators, lengths, retry budgets and random draws",
  "Duplicates only show up for rare draws.",
  ["array.go:arrayGenerator.generateConsideringUnique"])
p("Required properties are always present",
  "Every object generated for an accepted schema contains every key of required (unless generation was cut off).",
  "all schemas, options and random draws",
  "Random subset selection must not lose a key for any draw.",
  ["object.go:objectGenerator.Generate"])
p("Generated objects respect minProperties/maxProperties",
  "Every generated object has at least minProperties and at most maxProperties distinct keys.",
  "all property sets, bounds, options and random draws",
  "Key collisions and random selection give unboundedly many cases.",
  ["object.go:objectGenerator.Generate", "object.go:parseObject"])
p("additionalProperties:false admits no undeclared key",
  "With additionalProperties:false every key of a generated object is declared in properties or required or was generated from a patternProperties pattern.",
  "all property sets, bounds, options and random draws",
  "Must hold for every random path through the generator.",
  ["object.go:objectGenerator.Generate"])
p("Property values come from their sub-schema",
  "In a generated object the value of a declared property was generated from the sub-schema of that property.",
  "all schemas and random draws",
  "Quantifies over every key and draw.",
  ["object.go:objectGenerator.Generate"])
p("enum and const only yield listed, valid values",
  "A value generated for enum is one of the listed values and validates against the whole schema node; for const it is the constant.",
  "all enum lists, all validators and random draws",
  "Quantifies over validators and draws.",
  ["enum.go:parseEnum", "const.go:constGenerator"])
p("Type lists and unknown types pick a listed type",
  "A value generated for a type list was generated by the generator of one of the listed types, and a node without a type is treated by the documented inference order.",
  "all type lists, nodes and random draws",
  "All subsets of types and all draws.",
  ["multiple_type.go", "parse.go:inferType"])
p("anyOf/oneOf values validate",
  "A value generated for anyOf comes from one of the branches merged with the base schema; a value generated for oneOf with several branches validates against exactly one compiled branch, unless the failure marker is returned or generation was cut off.",
  "all branch lists, validators, retry budgets and random draws",
  "Retry loops with random regeneration.",
  ["combination.go:combinationGenerator.Generate", "combination.go:oneOfConstraint.Apply"])
p("if/then/else is honoured",
  "A value generated under if/then/else conditions comes from the then-branch and satisfies every condition it was generated for, or from the else-branch and satisfies none, or the failure marker is returned.",
  "all numbers of conditions, validators, retry budgets and random draws",
  "Order of conditions is random and later ones can undo earlier ones.",
  ["if.go:multipleIfConstraints.Apply", "if.go:ifConstraint.AttemptToSatisfy"])
p("Negated values, patterns, formats and properties never appear",
  "A value generated under not-constraints (excluded values, regexes, formats, properties) violates none of them, or is the failure marker, or generation was cut off.",
  "all constraint collections, matchers, retry budgets and random draws",
  "Random retries; must hold for every history of failed attempts.",
  ["constraint.go:multiConstraint.Apply", "constraint.go:constraintCollection.Compile"])
p("Generation terminates on every schema",
  "RootGenerator.Generate terminates for every parsed schema, however cyclic its references are and whatever the random source returns, with or without the cyclic-reference check.",
  "all generator graphs, option values and random sources",
  "Termination on all inputs is not testable.",
  ["reference.go:referenceGenerator.Generate", "reference_hander.go:referenceResolver", "root.go:RootGenerator.Generate"])
p("Reference stack discipline",
  "During generation no reference is entered while it is still open unless the check is bypassed, at most MaximumReferenceDepth+1 references are open at once, and the stack is unchanged after each generation step.",
  "all generator graphs, options and random sources",
  "Invariant over all execution prefixes.",
  ["reference.go:referenceGenerator.Generate", "reference_hander.go:referenceResolver"])
p("Past the cutoff no more structure is produced",
  "Once the step counter exceeds CutoffGenerationSteps, arrays, objects, references and retries stop: each yields an empty result without generating children; the step counter never decreases.",
  "all generator graphs, options and random sources",
  "Invariant over all executions.",
  ["generator.go:GeneratorOptions.ShouldCutoff", "array.go", "object.go", "reference.go", "constraint.go"])
p("Retry budget is positive, bounded and antitone",
  "ScaledRetryBudget(base) is at least 1, at most max(1,base), equals base below the minimise threshold, is 1 past the cutoff and never grows as complexity grows.",
  "all option values, base values and complexities (binary64 arithmetic)",
  "Float rounding across an infinite domain.",
  ["generator.go:GeneratorOptions.ScaledRetryBudget"])
p("Generate calls are independent",
  "Generate never modifies the caller's options or the generator: the n-th call behaves as a first call with the same options and the then-current random source.",
  "all call histories",
  "Histories are unbounded.",
  ["generator.go:withGeneratorOptionsDefaults", "root.go:RootGenerator.Generate"])
p("Generator options set by the caller take effect",
  "Every option the caller sets is the one used by generation; unset options get their documented default.",
  "all option values",
  "All combinations of option values.",
  ["generator.go:withGeneratorOptionsDefaults", "internal/util/util.go:GetInt", "internal/util/util.go:GetBool"])
p("Parsing is bounded by MaxParseDepth and terminates",
  "Parsing any schema terminates and never nests deeper than MaxParseDepth; the depth counter and the current path are restored after each node.",
  "all schemas of any size, with any references",
  "Termination and balance over all inputs.",
  ["parse.go:parseNode", "parse.go:parseSchemaNode", "reference_hander.go:ParseNodeInScope", "not.go:parseNot"])
p("Unsupported or invalid sub-schemas are reported",
  "If a sub-schema could not be turned into a generator, the parse result records an error for its path; errors are never lost once recorded.",
  "all schemas and parse histories",
  "Every failing position in every schema.",
  ["error.go:errorCollection", "parse.go:parseNode", "object.go:parseProperties"])
p("A local $ref generates what its target generates",
  "A reference to a path of the document resolves to the generator that was registered when the node at that path was parsed, and behaves exactly as it.",
  "all schemas and all registered paths",
  "All nestings of paths.",
  ["reference.go:parseReference", "reference_hander.go:AddReference", "reference_hander.go:Lookup"])
p("allOf yields values satisfying every branch",
  "For ref-free branches, a value satisfying the merged node's numeric, string, array, object, enum and const keywords satisfies those of each branch.",
  "all nodes and values",
  "All pairs of schemas.",
  ["all_of.go:parseAllOf", "merge.go:mergeSchemaNodesIncludingBase"])
p("Merging numeric and length bounds is exact and order-independent",
  "Merging bounds gives exactly the conjunction: a value satisfies the merged bounds iff it satisfies the bounds of all nodes; the result does not depend on the order of branches.",
  "all lists of reference-free nodes, with allOf branches nested to any depth",
  "All lists and permutations.",
  ["merge.go:mergeNumber", "merge.go:mergeString", "internal/util/util.go:MaxFloatPtr"])
p("Merged enum/const is the intersection",
  "The values allowed after merging enum/const of several nodes are exactly those allowed by each node, and an empty intersection is reported.",
  "all lists of enum/const nodes",
  "All lists of values.",
  ["merge.go:mergeEnumAndConst", "merge.go:collectEnumValues"])
p("Merged multipleOf is a common multiple",
  "After merging multipleOf a and b, every multiple of the result is a multiple of both a and b.",
  "all decimals a and b",
  "Infinite domain.",
  ["internal/util/util.go:FindHcf", "internal/util/util.go:countDecimalPlaces", "merge.go:mergeNumber"])
p("Negated integer bounds exclude the negated range",
  "After applying not{min..,max..} to integer bounds (lengths, items, properties), every value allowed by the result was allowed before and is outside the negated range, unless an error is recorded.",
  "all optional bounds",
  "All relative positions of two intervals with missing ends.",
  ["not.go:resolveBoundsInt"])
p("Negated number bounds exclude the negated range",
  "After applying not{minimum/maximum/exclusive...} to number bounds, every value allowed by the result was allowed before and is outside the negated range, unless an error is recorded.",
  "all optional bounds, inclusive or exclusive",
  "All relative positions of two intervals.",
  ["not.go:resolveBoundsFloat64"])
p("Negated types are removed",
  "After applying not{type:T} the remaining types are those allowed before minus T (integer is removed with number); if none remains an error is recorded.",
  "all type lists",
  "All pairs of subsets of types.",
  ["not.go:resolveType"])
p("Reference path resolution finds the addressed node",
  "Resolving a JSON pointer in a schema returns exactly the addressed sub-schema or an error, and never panics.",
  "all schemas and pointers",
  "All trees and paths.",
  ["reference_path.go:resolveSubReferencePath", "reference_path.go:resolveReferenceSlice"])
p("External documents are fetched only when policy allows (HTTP)",
  "A document is fetched over HTTP only if its URL is https (or insecure access was allowed) and its host is in the allowed hosts when that list is not empty.",
  "all URLs, options and sequences of references",
  "Security policy over all inputs.",
  ["fetchers.go:httpDocumentFetcher", "document.go:resolveDocumentRef"])
p("External documents are read only when policy allows (files)",
  "A file is read only if it lies inside the working directory (unless outside access was allowed) and inside one of the allowed paths when that list is set.",
  "all paths, options and sequences of references",
  "Security policy over all inputs.",
  ["fetchers.go:fileSystemDocumentFetcher"])
p("Each external document is parsed at most once and the queue drains",
  "However documents refer to each other, each document id is dequeued at most once and processing the queue terminates.",
  "all reference graphs between documents and all discovery orders",
  "Histories of a worklist.",
  ["document.go:documentResolver", "parse.go:ParseSchema"])
p("Schema (de)serialisation keeps the meaning",
  "Decoding a schema, encoding it and decoding it again gives the same schema node, including const:null, items:false and additionalProperties:false.",
  "all schema nodes",
  "All trees.",
  ["json.go"])
p("The regex generator's PRNG never degenerates",
  "From a non-zero state the xorshift generator never reaches the zero state and all its outputs are in [0, 2^63).",
  "all 64-bit states and numbers of steps",
  "2^64 states.",
  ["internal/regen/rng.go"])
p("Character-class sampling is exact",
  "Indexing a character class yields exactly the runes of the class: every index below the size gives a member, every member (other than U+0000) has exactly one index.",
  "all normalised range lists",
  "All classes.",
  ["internal/regen/char_class.go"])
p("Built-in format validators decide their format",
  "The validators for ipv4, uuid, json-pointer, relative-json-pointer, duration, time and hostname accept exactly the strings of their grammar; those for email, ipv6, uri, uri-reference and uri-template accept exactly the strings of theirs, given what the Go library says about IP addresses, mail addresses and URLs; and generated durations/times are accepted.",
  "all strings",
  "All strings.",
  ["internal/jsonschema/formats.go", "string.go:generateFormat"])
p("Generated data validates against its schema",
  "For every accepted schema of the supported fragment (type, numeric bounds, length bounds, enum, const, items, prefixItems, min/maxItems, properties, required, additionalProperties, min/maxProperties, type lists, anyOf), every generated value is valid against the schema, unless a give-up marker or a cutoff occurred.",
  "all schemas of the fragment, of any depth, all options and random sources",
  "The headline promise of the library: for every schema and draw.",
  ["parse.go", "generator.go", "object.go", "array.go", "number.go", "string.go"])
p("Parsing and generation never panic on accepted schemas",
  "If ParseSchema succeeds, Generate does not panic, for any random source and options with non-negative values.",
  "all schemas and random sources",
  "Every partial operation on every input.",
  ["multiple_type.go", "rand/random.go", "array.go", "object.go"])
p("Option handling of the parser",
  "ParseSchema uses the options the caller gives and does not modify them.",
  "all option values and call histories",
  "Histories.",
  ["parse.go:withDefaultParseOptions", "parse.go:ParseSchemaFile"])
p("JSON-level exclusions compare whole values",
  "Excluded values (not/const, not/enum) are compared by their JSON encoding: a generated value with the same encoding is rejected and a value with a different encoding is not.",
  "all values",
  "All JSON trees.",
  ["constraint.go:constraintCollection.Compile", "not.go:notApplyConst", "not.go:notApplyEnum"])
p("The command line tool fetches only what its flags allow",
  "Without fetch flags the tool fetches nothing; with them, every request is https or -allow-insecure is given, and goes to a host listed in -allowed-hosts; with an empty list http and https resolution fails, as the help text says; the flags apply wherever the schema is read from.",
  "all flags, schemas, files and standard inputs",
  "Security policy over all inputs.",
  ["cli/cli.go:getHttpDocumentFetcherOptionsFromFlags", "cli/cli.go:getFileSystemDocumentFetcherOptionsFromFlags", "cli/cli.go:main"])
p("The command line tool never overwrites a file and never leaves a partial one",
  "Writing the output changes no file that existed, whatever other processes do and wherever the tool is interrupted; afterwards the output file is absent or complete.",
  "all file system contents, interleavings with other processes and interruption points",
  "Schedules and crash points.",
  ["cli/cli.go:writeFile"])
p("The generation flags of the command line tool take effect",
  "Each generation flag sets the option of the same name to the value given.",
  "all flag values",
  "All values.",
  ["cli/cli.go:main", "generator.go:withGeneratorOptionsDefaults"])
p("Date, date-time and period validators decide their format",
  "The validators used for the formats date, date-time and period accept exactly the strings of RFC 3339 section 5.6 and appendix A, including month lengths, leap years and leap seconds.",
  "all strings",
  "All strings; leap years and leap seconds across zones are rare combinations.",
  ["internal/jsonschema/formats.go:isDate", "internal/jsonschema/formats.go:isDateTime", "internal/jsonschema/formats.go:isPeriod"])
p("A negation leaves the other keywords of its schema in force",
  "Adding \"not\" to a schema never makes it generate a value that breaks one of its other keywords: what is generated for a schema with a negation is valid for the schema without it.",
  "all schemas with a negation and all generated values",
  "All combinations of keywords beside and under the negation.",
  ["not.go:parseNot", "not.go:notMerge", "not.go:notApplyNumberAndInteger", "not.go:notApplyObject", "not.go:notApplyArray", "not.go:notMergeSubNode"])
p("Parsing a schema never panics",
  "For every schema text, every options value and every answer of the file system and the network, ParseSchema returns a generator, errors or both; it never panics.",
  "all schema texts, options, fetched documents and parse lengths",
  "Every combination of keywords, references and documents.",
  ["parse.go:ParseSchema", "reference_path.go:resolveSubReferencePath", "not.go:resolveBool", "document.go:ParseNextDocument"])
p("A failure text means that every attempt failed",
  "For not, oneOf and if, candidates are generated one after another and the first acceptable one is the value; the failure text is returned only when as many candidates as the retry budget grants were all refused, and a candidate is refused only for a reason the keyword gives.",
  "all schemas with not, oneOf or if, all options, random sources and validators",
  "All random sequences; a test sees one sequence and cannot tell a candidate refused without reason from bad luck.",
  ["constraint.go:multiConstraint.Apply", "constraint.go:constraintCollection.Compile", "combination.go:oneOfConstraint.Apply", "combination.go:constrainedGenerator.Generate", "if.go:multipleIfConstraints.Apply", "if.go:AttemptToSatisfyIfStatement"])
p("A string seed becomes a fixed number, and one changed character changes it",
  "Creating a generator from a string seed uses the sum of the string's characters, each multiplied by one more than its byte offset, as a 64-bit integer; so the same string always stands for the same seed, two strings that differ in a single character never share one, and different strings are meant to give different seeds.",
  "every string of characters (for one changed character: every string below 2^40 bytes, every position, every pair of characters)",
  "Collisions and wrap-around depend on the whole string; a unit test sees a few strings.",
  ["rand/random.go: NewRandUtilFromString"])
p("Choosing and shuffling lose nothing and favour nothing out of reach",
  "Shuffling a slice rearranges it: every element stays exactly as often as before, and every arrangement is possible. Choosing k strings gives exactly k elements from different positions, any such selection in any order is possible, and it panics exactly when k is negative or more than the slice holds. Choosing one gives an element of the slice, any of them, and panics only for an empty slice.",
  "every slice, every number of choices, every sequence of random draws; for the possibility parts, every target arrangement",
  "Reachability of every arrangement and the absence of repetitions range over all random sources.",
  ["rand/random.go: Shuffle, StringChoiceMultiple, StringChoice, Choice"])

p("Whatever the schema allows can come out",
  "Generation leaves nothing out: for each value, length or choice of properties that a schema allows there is a random source under which it comes out. This covers every member of an enum, both booleans, every type of a type list, every branch of an anyOf, every integer between two bounds, every allowed multiple, every number of items from minItems to maxItems and every set of optional properties from minProperties to maxProperties.",
  "all schemas of these kinds, all allowed values, lengths and property sets, and for the negative results all random sources",
  "A value that never comes out is invisible to tests that run the generator, since any number of runs may simply have missed it.",
  ["enum.go:enumGenerator.Generate", "boolean.go:booleanGenerator.Generate", "multiple_type.go:multipleTypeGenerator.Generate", "combination.go:combinationGenerator.Generate", "number.go:parseNumber", "number.go:generateMultipleOf", "array.go:arrayGenerator.Generate", "object.go:objectGenerator.Generate", "rand/random.go: RandomInt"])

p("Goroutines may share the source of a pattern generator",
  "Several goroutines may draw from the random source of one pattern generator at the same time, as its documentation says: every number returned is a non-negative 63-bit number, the source never gets stuck, a goroutine always finishes its call, one that is alone gets the sequential numbers, and the texts generated still match the pattern.",
  "all seeds, any number of goroutines, all orders of their accesses to the source, both ways of compiling a statement that reads the source twice",
  "Schedules: a test runs one interleaving among a number that grows exponentially, and the harmful ones need particular states.",
  ["internal/regen/rng.go: xorShift64Source.Int63", "internal/regen/internal_generator.go", "internal/regen/regen.go: GeneratorArgs.rng"])

p("A schema text means what its keywords say",
  "A text is accepted as a schema exactly when each of its members has a value of the kind its keyword asks for, at every depth, and each keyword is then read from the member of that name: lengths and counts as whole numbers of 64 bits, bounds as numbers a float64 can hold, null as absent except for const, false and true where a schema may stand, enum and const values unchanged. What the program writes for a schema is read back as that schema.",
  "every JSON value, every schema",
  "Exchanged keywords are invisible to round trips, and each member interacts with its value's kind; the texts are unbounded.",
  ["json.go:schemaNode.UnmarshalJSON", "json.go:multipleType.UnmarshalJSON", "json.go:itemsData.UnmarshalJSON", "json.go:schemaNodeOrFalse.UnmarshalJSON", "parse.go:schemaNode", "parse.go:ParseSchema"])
p("The list of errors shows every place that failed",
  "After parsing, HasErrors is true exactly when something was reported, and CollectErrors has an entry for every document and path something was reported for and no other; the entry holds the error reported last for it.",
  "all schemas and parse histories, every order in which Go visits its maps",
  "The order of map iteration is chosen at random by the runtime, and reports come from every place of every schema.",
  ["error.go:errorCollection.AddErrorWithSubpath", "error.go:errorCollection.HasErrors", "error.go:errorCollection.CollectErrors"])
p("Consistent string, object and array schemas are accepted",
  "A schema of type string, object or array without combinations is accepted exactly when its size keywords go together, and whenever some length or some set of property names satisfies its size keywords, required and additionalProperties it is accepted, unless the schema of a member is refused.",
  "all plain schemas of these types, options, documents and parser states within the depth limit",
  "The combinations of keywords are unbounded in number and value; a wrong comparison shows only at the boundary of one of them.",
  ["string.go:parseString", "object.go:parseObject", "array.go:parseArray", "assert.go:assertLowerUpperBound"])

with open("/verif/properties.jsonl","w") as f:
    for x in P: f.write(json.dumps(x)+"\n")
print(len(P))
