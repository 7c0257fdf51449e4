{"id": "C01", "title": "Aggregation types survive compression", "statement": "Compressing any list of valid aggregation types into an aggregation ID and decompressing that ID yields exactly the distinct types of the list in ascending order; the default (empty) list maps to the default ID; a list with any invalid type is rejected with an error and the default ID. ID.Contains(t) holds for exactly the types of the list.", "quantifier": "every list of aggregation types, of any length, with repetitions and invalid values", "why_tests_cant": "2^22 distinct IDs and unboundedly many input lists; a wrong bit position, a lost duplicate or a leftover bit of the reused compressor state only shows for particular lists", "anchors": ["aggregation/id_compress.go: Compress, Decompress", "aggregation/id.go: ID.Contains, ID.IsDefault, CompressTypes", "aggregation/type.go: Type.IsValid"]}
{"id": "C02", "title": "Every aggregation ID decodes to at most one type list", "statement": "For every 64-bit aggregation ID, decompression succeeds if and only if only bits of valid types are set, the decoded list is strictly ascending, and re-compressing it gives back the same ID; hence two IDs decoding to the same list are equal.", "quantifier": "every 64-bit word", "why_tests_cant": "2^64 words; tests sample a handful", "anchors": ["aggregation/id_compress.go: Decompress", "aggregation/id.go: ID.Types, ToProto, FromProto"]}
{"id": "C03", "title": "Aggregation type strings parse back", "statement": "Parsing the printed name of a valid aggregation type gives the type back, distinct valid types have distinct names, and parsing a comma separated list printed from a non-empty list of valid types gives the same list; anything else is an error, never a wrong type.", "quantifier": "every valid type, every non-empty list of valid types, every string handed to the parser", "why_tests_cant": "lists are unbounded and the parser accepts arbitrary strings", "anchors": ["aggregation/type.go: ParseType, ParseTypes, Types.String", "aggregation/type_string.go"]}
{"id": "C04", "title": "Type suffix lookup inverts type suffix generation", "statement": "For any aggregation type options whose suffix strings for the valid types are pairwise different, looking up the type of the suffix generated for a type (counter, timer or gauge) returns that type; an unknown suffix returns the unknown type. Options with colliding suffixes (such as the empty transform) are inherently ambiguous: the lookup returns the smallest type having that suffix.", "quantifier": "all type options (any override table, any transform, any quantile naming function), all valid types, all strings", "why_tests_cant": "the override tables and transform functions are user supplied, so the space of configurations is unbounded", "anchors": ["aggregation/types_options.go: TypeStringForCounter/Timer/Gauge, TypeForCounter/Timer/Gauge, computeTypeStrings, typeFor"]}
{"id": "C05", "title": "Quantiles of a type list", "statement": "The pooled quantile extraction returns exactly the quantiles of the listed types in order, mapping both Median and P50 to 0.5 but emitting 0.5 only once, and reports each P type with its own quantile; non quantile types contribute nothing.", "quantifier": "every list of types", "why_tests_cant": "lists are unbounded", "anchors": ["aggregation/type.go: Type.Quantile, Types.PooledQuantiles, Types.IsSimple"]}
{"id": "C06", "title": "Storage policy list equality is order-insensitive multiset equality", "statement": "StoragePolicies.Equal(a, b) holds if and only if b is a permutation of a; it is therefore reflexive, symmetric and transitive, and neither argument is modified.", "quantifier": "all pairs of lists of storage policies", "why_tests_cant": "unbounded lists; a wrong comparator (not a strict total order) only misbehaves for particular ties", "anchors": ["policy/storage_policy.go: StoragePolicies.Equal, ByResolutionAscRetentionDesc.Less"]}
{"id": "C07", "title": "Storage policies and policies survive their textual form", "statement": "Parsing the printed form of a storage policy or of a policy (storage policy plus aggregation types) returns the same value, for all policies whose durations survive duration printing; malformed strings (wrong number of separators) are rejected.", "quantifier": "every resolution, precision, retention and aggregation ID; every input string", "why_tests_cant": "durations, precisions and aggregation IDs are unbounded domains", "anchors": ["policy/storage_policy.go: String, ParseStoragePolicy", "policy/resolution.go: String, ParseResolution", "policy/policy.go: String, ParsePolicy", "policy/retention.go: ParseRetention"]}
{"id": "C08", "title": "Storage policies survive protobuf conversion", "statement": "Converting a storage policy with a valid precision to its protobuf message and back is the identity, whatever the previous content of the reused message; an invalid precision, or a message with missing resolution or retention, is an error.", "quantifier": "every storage policy, every prior content of the target message, every message", "why_tests_cant": "reuse of target messages makes the result potentially depend on history", "anchors": ["policy/storage_policy.go: ToProto, FromProto, Proto", "policy/resolution.go: ToProto, FromProto", "policy/retention.go: ToProto, FromProto"]}
{"id": "C09", "title": "Drop policies resolve by documented priority", "statement": "Resolving the drop policies of a list of pipelines gives: the canonical drop pipeline if any pipeline has the 'must drop' policy; otherwise, if every pipeline is 'drop if only match' (and there is one), the canonical drop pipeline; otherwise exactly the pipelines without a drop policy in their original order (for valid drop policies). Resolution is idempotent and never yields an empty list from a non-empty list of valid policies.", "quantifier": "every list of pipelines", "why_tests_cant": "unbounded lists processed by an in-place removal loop whose errors depend on positions", "anchors": ["metadata/metadata.go: PipelineMetadatas.ApplyOrRemoveDropPolicies", "policy/drop_policy.go"]}
{"id": "C10", "title": "Drop policies resolve stage by stage in staged metadatas", "statement": "Applying drop policies to staged metadatas resolves each stage by the documented priority; the overall effect tells the caller 'drop' exactly when every stage resolves to drop, and stages that survive keep their order, cutover and tombstone flag.", "quantifier": "every list of staged metadatas", "why_tests_cant": "in-place removal while iterating downwards; errors depend on the position pattern of dropped stages", "anchors": ["metadata/metadata.go: StagedMetadatas.ApplyOrRemoveDropPolicies"]}
{"id": "C11", "title": "Filter patterns mean what the glob language says", "statement": "A filter compiled from a pattern matches exactly the values in the pattern's language: literal characters match themselves, '?' any one character, [a-z] / [abc] / [!..] one character in (not in) the set, {x,y} one alternative, a leading '*', a trailing '*', a single inner '*' and '*x*' arbitrary text, and a leading '!' negates the whole pattern. Malformed patterns are rejected with an error. (Known deviations of the code: an inner '*' lets prefix and suffix overlap; alternatives are not backtracked.)", "quantifier": "every pattern byte string and every value", "why_tests_cant": "both patterns and values are arbitrary byte strings", "anchors": ["filters/filter.go: NewFilter, newWildcardFilter, newRangeFilter, newSingleRangeFilter, multiChainFilter.Matches"]}
{"id": "C12", "title": "Filter combinators obey boolean algebra", "statement": "Negation complements, conjunction is 'all', disjunction is 'any' (both vacuously true on an empty list as documented by the constructor), and the equality and contains filters coincide with byte equality and substring containment.", "quantifier": "every filter list and every value", "why_tests_cant": "unbounded lists of arbitrary filters", "anchors": ["filters/filter.go: newNegationFilter, NewMultiFilter, equalityFilter, containsFilter"]}
{"id": "C13", "title": "Tag filters match by tag", "statement": "For a metric ID whose tags are sorted by name with distinct names, a conjunctive tag filter matches if and only if the name filter (if any) matches the name and every filtered tag is present with a value, the first one of that name, that matches; a disjunctive tag filter matches if and only if the name filter matches or some filtered tag is present with a matching value; a filter without any condition matches everything.", "quantifier": "every set of tag filters, every filter, every sorted tag list and name", "why_tests_cant": "the code merges two sorted sequences with early exits; errors depend on how the two orders interleave", "anchors": ["filters/tags_filter.go: NewTagsFilter, tagsFilter.Matches"]}
{"id": "C14", "title": "Tag filter strings parse to a map or fail", "statement": "Parsing a tag filter string succeeds if and only if every space separated token, trimmed of ASCII white space, has exactly one ':' with non-empty sides and no tag name is repeated; the resulting map has exactly the given pairs, independent of their order and of surrounding or repeated spaces.", "quantifier": "every string", "why_tests_cant": "unbounded strings", "anchors": ["filters/tags_filter.go: ParseTagFilterValueMap, ValidateTagsFilter"]}
{"id": "C15", "title": "Rollup IDs parse back to their name and tags", "statement": "For a name without '+', tag names without '=' or ',' and values without ',', the ID built by the rollup ID constructor splits back into exactly that name and exactly the given tags plus the rollup marker tag, sorted by name; the ID is recognised as a rollup ID.", "quantifier": "every name and every list of tag pairs without separators", "why_tests_cant": "unbounded tag lists", "anchors": ["metric/id/m3/id.go: NewRollupID, NameAndTags, IsRollupID, sortedTagIterator"]}
{"id": "C16", "title": "Rollup IDs are canonical and collision free", "statement": "Two calls of the rollup ID constructor with the same name and the same set of tags in any order give the same ID; calls with different names or different tag sets give different IDs (for separator-free names and tags with distinct tag names).", "quantifier": "all pairs of names and tag lists", "why_tests_cant": "a collision would silently merge two unrelated time series; pairs of unbounded lists", "anchors": ["metric/id/m3/id.go: NewRollupID", "metric/id/tag.go: TagPairsByNameAsc"]}
{"id": "C17", "title": "Tag value lookup", "statement": "Looking up a tag in an ID returns the value of the first tag with that name in the ID's tag section and reports absence otherwise; iterating tags of a well formed tag section yields exactly its pairs in order with no error.", "quantifier": "every ID and every tag name", "why_tests_cant": "IDs are arbitrary byte strings", "anchors": ["metric/id/m3/id.go: id.TagValue, sortedTagIterator.Next"]}
{"id": "C18", "title": "Pipeline equality is an equivalence and clones are equal", "statement": "Pipeline equality (rule pipelines and applied pipelines) is reflexive, symmetric and transitive; a clone is equal to its original; rollup operations compare their tags as multisets.", "quantifier": "all pipelines of any length", "why_tests_cant": "unbounded pipelines", "anchors": ["pipeline/type.go: Pipeline.Equal, Pipeline.Clone, RollupOp.Equal", "pipeline/applied/type.go: Pipeline.Equal, Clone"]}
{"id": "C19", "title": "Rule pipelines survive protobuf conversion", "statement": "Converting a pipeline of valid operations to protobuf and back gives an equal pipeline (rollup tags sorted); unknown operation or type codes and missing payloads are errors.", "quantifier": "every pipeline, every message", "why_tests_cant": "unbounded pipelines and messages", "anchors": ["pipeline/type.go: Pipeline.Proto, NewPipelineFromProto, NewOpUnionFromProto, NewRollupOpFromProto"]}
{"id": "C20", "title": "Metadata survives protobuf conversion whatever buffers are reused", "statement": "Converting staged metadatas (and forward and timed metadata, applied pipelines) to a reused protobuf message and back into a reused value yields the original metadata, independently of the previous contents and capacities of both reused objects; with more than 2^31-1 forwardings the count is truncated.", "quantifier": "every metadata value, every stale source and target buffer", "why_tests_cant": "the encoders recycle slices by capacity, so stale elements could leak for particular sequences of sizes", "anchors": ["metadata/metadata.go: ToProto, FromProto of PipelineMetadata(s), Metadata, StagedMetadata(s), ForwardMetadata, TimedMetadata", "pipeline/applied/type.go: ToProto, FromProto"]}
{"id": "C21", "title": "Metadata cloning preserves every field", "statement": "Cloning pipeline metadata yields a value equal in every field, including the drop policy. (The code drops the drop policy: refuted, with the exact condition under which the clone is faithful.)", "quantifier": "every pipeline metadata", "why_tests_cant": "universally quantified over field values; tests only clone values whose drop policy is the zero value", "anchors": ["metadata/metadata.go: PipelineMetadata.Clone, PipelineMetadatas.Clone"]}
{"id": "C22", "title": "Legacy policies convert to metadata without loss", "statement": "Converting a legacy policies list to staged metadatas keeps the number, order, cutover and tombstone flag of the stages; within a stage the set of (aggregation ID, storage policy) pairs is exactly preserved, each aggregation ID gets one pipeline, no storage policy is repeated in a pipeline and first-occurrence order is kept; the default policies become the default metadata.", "quantifier": "every policies list", "why_tests_cant": "nested unbounded lists with duplicates in arbitrary positions", "anchors": ["encoding/migration/convert.go: ToStagedMetadatas, toMetadata", "rules/convert.go: toAggregationIDAndStoragePolicies"]}
{"id": "C23", "title": "A rule is in effect from its cutover", "statement": "The snapshot of a rule in effect at time t is the last one in the rule's history whose cutover is not after t; before the first cutover the rule has no effect; for a history with ascending cutovers this is the snapshot with the greatest cutover not after t.", "quantifier": "every rule history and every time", "why_tests_cant": "unbounded histories", "anchors": ["rules/mapping.go: activeSnapshot, activeIndex, activeRule", "rules/rollup.go: activeSnapshot, activeIndex, activeRule"]}
{"id": "C24", "title": "Trimming history does not change matching", "statement": "For rules whose cutovers do not decrease along their history, matching against the set of rules active since time t0 gives, for every query window starting at or after t0, the same result as matching against the full rule set, including the expiry time.", "quantifier": "every rule set, every t0 and every later window", "why_tests_cant": "unbounded histories and windows", "anchors": ["rules/ruleset.go: ActiveSet", "rules/mapping.go: activeRule", "rules/rollup.go: activeRule", "rules/active_ruleset.go: newActiveRuleSet"]}
{"id": "C25", "title": "Cutover search finds the next change", "statement": "The next-cutover lookup returns the first rule change strictly after t, or 'never' when there is none; the list searched is strictly ascending and contains exactly the cutover times of the rules.", "quantifier": "every rule set and time", "why_tests_cant": "binary search boundary errors show only for particular times and lengths", "anchors": ["rules/active_ruleset.go: newActiveRuleSet, nextCutoverIdx, cutoverNanosAt"]}
{"id": "C26", "title": "Forward match of an existing metric at an instant", "statement": "At an instant, the pipelines of a non-rollup metric are: those of every matching live mapping rule (the default pipeline if there are none, a drop if the mapping drop policies so resolve), followed by the rollup pipelines applying to the metric itself, with equal pipelines reported once. No pipeline comes from a rule that does not match or is tombstoned. (Drop policies are valid; tags are sorted and distinct.)", "quantifier": "every rule set, metric ID, and time", "why_tests_cant": "unbounded numbers of rules and filters", "anchors": ["rules/active_ruleset.go: forwardMatchAt, mappingsForNonRollupID, rollupResultsFor, ruleMatchResults.unique"]}
{"id": "C27", "title": "Drop-if-only-match drops only when nothing else matches", "statement": "A metric matched by a drop-if-only-match mapping rule is dropped only if no other rule matches it. (Holds among mapping rules; refuted when the other matching rule is a rollup rule.)", "quantifier": "every rule set and metric", "why_tests_cant": "interaction between two rule kinds over unbounded rule sets", "anchors": ["rules/active_ruleset.go: mappingsForNonRollupID, mergeMappingResults", "policy/drop_policy.go"]}
{"id": "C28", "title": "Forward match results are time ordered and expire at the next change", "statement": "The staged metadatas returned for a window [from, to) have non-decreasing cutovers, the first one is the match at 'from', there is one stage per rule change inside the window, and the expiry time is the first rule change that is after 'from' and not before 'to' (or never); hence for a later window that ends by the expiry a fresh match gives stages with the same pipelines, without leading ones.", "quantifier": "every rule set, metric and window", "why_tests_cant": "unbounded histories and windows", "anchors": ["rules/active_ruleset.go: ForwardMatch, mergeResultsForExistingID", "rules/match_result.go"]}
{"id": "C29", "title": "The stage in effect is the right one", "statement": "For every time t in the window, the first stage of the metadatas reported as active at t equals the match computed afresh at t. (Refuted: when a rule stops matching inside the window while the remaining rules keep the maximal cutover, the later stage is served too early; proved under the exact side condition, and unconditionally for per-rollup-ID results with one source rule per ID.)", "quantifier": "every rule set, metric, window and time in it", "why_tests_cant": "depends on the relative order of cutovers of different rules", "anchors": ["rules/match_result.go: ForExistingIDAt, ForNewRollupIDsAt, activeStagedMetadatasAt", "rules/active_ruleset.go: mergeResultsForExistingID, mergeResultsForNewRollupIDs"]}
{"id": "C30", "title": "Rollup IDs appear and disappear with their rules", "statement": "Over a window each rollup ID has exactly one entry, sorted by ID; at every rule change where a previously produced rollup ID is no longer produced a tombstoned stage is recorded at that change; a newly produced ID starts at the change that introduced it.", "quantifier": "every rule set with distinct rollup IDs, metric and window", "why_tests_cant": "merge of two sorted sequences over unbounded histories", "anchors": ["rules/active_ruleset.go: mergeResultsForNewRollupIDs, toRollupResults"]}
{"id": "C31", "title": "Rollup targets match by tag presence", "statement": "For a metric whose tags are sorted with distinct names and a target whose tags are strictly sorted, the rollup target applies if and only if every target tag is present in the metric, and the produced ID carries exactly those tags with the metric's values.", "quantifier": "every tag list and every target", "why_tests_cant": "merge of two sorted sequences", "anchors": ["rules/active_ruleset.go: matchRollupTarget, applyIDToPipeline"]}
{"id": "C32", "title": "Reverse match recovers the policies of a rollup ID", "statement": "Reverse matching the ID produced by a rollup rule finds the storage policies of that rule's target. (Refuted when two targets share a name and one's tags include the other's; proved when target names are distinct.)", "quantifier": "every rule set, metric and rollup target", "why_tests_cant": "interaction of unbounded rule sets", "anchors": ["rules/active_ruleset.go: ReverseMatch, reverseMappingsForRollupID, reverseMappingsForNonRollupID, filteredPipelinesWithAggregationType"]}
{"id": "C33", "title": "Rule histories are append-only", "statement": "Every successful edit of a rule set (add, update, delete, revive of mapping and rollup rules, delete and revive of the set) leaves all earlier snapshots of every rule unchanged and appends at most one snapshot per rule and edit; failed single edits change nothing. Hence what was in effect at a time before the edit's cutover stays in effect there.", "quantifier": "every sequence of edits from every rule set", "why_tests_cant": "unbounded edit histories", "anchors": ["rules/ruleset.go: Add/Update/DeleteMappingRule, Add/Update/DeleteRollupRule, Delete, Revive, ApplyRuleSetChanges", "rules/mapping.go: addSnapshot, markTombstoned, revive", "rules/rollup.go"]}
{"id": "C34", "title": "Rule names stay unique under additions and deletions", "statement": "No sequence of additions and deletions creates two live rules of the same kind with the same name, and adding a rule under a live name is an error; adding under the name of a tombstoned rule revives that rule with its history. This holds from any set whose names are distinct. Updates are not checked: they can rename a rule onto a live name.", "quantifier": "every sequence of edits", "why_tests_cant": "unbounded edit histories", "anchors": ["rules/ruleset.go: AddMappingRule, AddRollupRule, UpdateMappingRule, getMappingRuleByName", "rules/validator/validator.go"]}
{"id": "C35", "title": "Deleting a rule set deletes every rule", "statement": "Deleting a live rule set tombstones it and every live rule, so that, if no earlier edit has a later cutover, nothing matches at or after the deletion cutover; deleting twice or reviving a live set is an error; reviving leaves all rules tombstoned.", "quantifier": "every rule set and edit history", "why_tests_cant": "unbounded", "anchors": ["rules/ruleset.go: Delete, Revive, Latest", "rules/mapping.go: markTombstoned"]}
{"id": "C36", "title": "Rule sets survive protobuf conversion", "statement": "A rule set can be written to protobuf and read back exactly if every rule in its history has valid aggregation types, storage policies and pipeline operations, a filter that compiles, a valid drop policy not combined with storage policies, and, unless deleted, either storage policies or a drop policy (mapping) or at least one target (rollup); what is read is the same rule set, its filters compiled, except that rollup tags are sorted and the aggregation types of a mapping rule without storage policies are dropped; anything the reader accepts is written and read again as exactly itself; edits with such contents keep a rule set readable.", "quantifier": "every rule set, every stored form, every sequence of edits", "why_tests_cant": "unbounded rule sets and histories; the failing corners need specific combinations", "anchors": ["rules/ruleset.go: Proto, NewRuleSetFromProto", "rules/mapping.go: proto, newMappingRuleSnapshotFromProto", "rules/rollup.go", "rules/rollup_target.go"]}
{"id": "C37", "title": "Batch changes apply in order and all errors surface", "statement": "Applying a set of rule changes that succeeds is the same as applying the individual edits in order; an unknown operation, a missing field or a failing edit makes the batch stop. A batch that stops is not atomic: exactly the changes before the offending one have been applied.", "quantifier": "every batch and rule set", "why_tests_cant": "unbounded batches", "anchors": ["rules/ruleset.go: ApplyRuleSetChanges, applyMappingRuleChanges, applyRollupRuleChanges"]}
{"id": "C38", "title": "Namespace life cycle", "statement": "Adding a namespace that is live is an error, adding a tombstoned one revives it with the next rule set version, deleting an unknown or tombstoned one is an error; names stay unique, snapshot histories are append-only, and the live set evolves exactly like a set under insert and remove.", "quantifier": "every sequence of add and delete operations", "why_tests_cant": "unbounded histories", "anchors": ["rules/namespace.go: AddNamespace, DeleteNamespace, Namespace.revive, markTombstoned, Tombstoned"]}
{"id": "C39", "title": "Namespaces survive protobuf conversion", "statement": "Namespaces converted to protobuf and back are unchanged exactly when every rule set version fits 32 bits; otherwise everything but the version survives, and the version is cut to its low 32 bits.", "quantifier": "every namespaces value", "why_tests_cant": "unbounded", "anchors": ["rules/namespace.go: Proto, NewNamespaces, newNamespaceSnapshot"]}
{"id": "C40", "title": "Store writes are optimistic and atomic", "statement": "A write succeeds only if the stored version is the version the writer read, so of any two writers that read the same version at most one succeeds and the other gets a stale-data error; a combined namespaces and rule set write happens entirely or not at all; a successful history of writes is a serial history without lost updates; invalid rule sets never reach the store.", "quantifier": "every interleaving of any number of readers and writers", "why_tests_cant": "interleavings of unboundedly many clients", "anchors": ["rules/store/kv/store.go: WriteRuleSet, WriteAll, ReadRuleSet, ReadNamespaces, wrapWriteError"]}
{"id": "C41", "title": "The validator accepts exactly the documented rule sets", "statement": "A rule set passes validation if and only if its namespace is valid, live mapping rules have distinct names, valid filters, allowed aggregation types and allowed storage policies (or a drop policy instead), and live rollup rules have distinct names, valid filters, and targets whose pipelines satisfy the documented structure (aggregation only first, transformation order bounded, at least one rollup, at most the allowed number of rollup levels, new names and tags legal, required tags present, strictly shrinking tag sets), with no two rollups producing the same name and tags.", "quantifier": "every rule set view and validator configuration", "why_tests_cant": "unbounded rule sets", "anchors": ["rules/validator/validator.go"]}
{"id": "C42", "title": "The cache's linked list is a sequence", "statement": "Any sequence of push-front, push-back, remove and move-to-front operations on the pointer based list behaves like the same operations on an abstract sequence: forward and backward traversals agree, the length counter is right, removed elements never come back, operations on removed elements do nothing.", "quantifier": "every sequence of operations", "why_tests_cant": "pointer aliasing over unbounded histories", "anchors": ["matcher/cache/list.go"]}
{"id": "C43", "title": "Cached results are what the source returned for that metric", "statement": "Every result served by the cache for (namespace, metric) was returned by the source registered for that namespace for that same metric, and is not expired at the end of the requested window; unknown namespaces get the empty result.", "quantifier": "every interleaving of matches, registrations, refreshes, unregistrations, evictions and deletions", "why_tests_cant": "unbounded concurrent histories", "anchors": ["matcher/cache/cache.go: ForwardMatch, Register, Refresh, Unregister, doEvict, doDelete"]}
{"id": "C44", "title": "Refreshing purges stale results", "statement": "Once a refresh for the registered source completes, no result computed before the refresh is served again for that namespace; after unregistering, no cached result of the namespace is served.", "quantifier": "every interleaving", "why_tests_cant": "unbounded concurrent histories including in-flight background deletions", "anchors": ["matcher/cache/cache.go: refreshWithLock, doDelete, invalidateWithLock"]}
{"id": "C45", "title": "Cache eviction is bounded and least-recently-used", "statement": "After an eviction pass the list holds at most 'capacity' elements, exactly the most recently promoted ones; every entry reachable through the maps is in the list unless it awaits deletion; with zero freshness durations the evicted elements are the least recently used. With others, an entry is promoted at most once per freshness duration, and an entry that is used but not promoted was promoted less than the freshness duration and the stutter ago.", "quantifier": "every history of operations", "why_tests_cant": "unbounded histories", "anchors": ["matcher/cache/cache.go: doEvict, promote, add"]}
{"id": "C46", "title": "The byte-keyed hash maps behave like maps", "statement": "The generated byte-keyed maps return for each key the value last set and not deleted, for any hash function. (Refuted under hash collisions with deletions: deleting a key can hide another; proved when keys do not collide, or when nothing is deleted.)", "quantifier": "every sequence of set, get and delete and every hash function", "why_tests_cant": "collisions of a 64-bit hash do not occur in tests", "anchors": ["matcher/cache/elem_map_gen.go", "matcher/cache/namespace_results_map_gen.go", "matcher/namespace_rule_sets_map_gen.go", "matcher/rule_namespaces_map_gen.go"]}
{"id": "C47", "title": "Matcher follows the namespaces it watches", "statement": "After processing any sequence of namespace and rule set updates, a metric in a known namespace is matched with the latest processed rules of that namespace, namespaces whose deletion is complete and old enough are removed, and no other namespace is ever removed.", "quantifier": "every sequence of updates", "why_tests_cant": "unbounded histories", "anchors": ["matcher/namespaces.go: process", "matcher/ruleset.go: process, ForwardMatch", "matcher/match.go"]}
{"id": "C48", "title": "Protobuf streams round-trip", "statement": "Decoding the byte stream produced by encoding any sequence of valid messages yields exactly that sequence and then end-of-stream, however many encoders share a buffer pool, except that a gauge or timed value of minus zero arrives as zero; a stream cut at any byte yields exactly the messages that are whole and then an error (end-of-stream or unexpected end), never a wrong message.", "quantifier": "every sequence of messages and every cut point", "why_tests_cant": "unbounded sequences, arbitrary crash points", "anchors": ["encoding/protobuf/unaggregated_encoder.go", "encoding/protobuf/unaggregated_iterator.go", "encoding/protobuf/reset.go", "generated/proto"]}
{"id": "C49", "title": "Message size limits are enforced and encoding failures leave no trace", "statement": "A message larger than the limit is rejected by the encoder with the buffer unchanged and by the decoder with an error; truncating the encoder to an earlier length removes exactly the messages after it; relinquished buffers are never written again.", "quantifier": "every message, limit and operation sequence", "why_tests_cant": "unbounded", "anchors": ["encoding/protobuf/unaggregated_encoder.go: encodeMetricWithMetadatas, Truncate, Relinquish, Reset", "encoding/protobuf/buffer.go"]}
{"id": "C50", "title": "Decoding never crashes", "statement": "The stream decoders return an error for any malformed input and never fail otherwise. (Refuted for the protobuf stream decoder: a negative size prefix makes it slice out of range, and so does an embedded length close to 2^63. The migration decoder never routes negative sizes to it.)", "quantifier": "every byte string", "why_tests_cant": "arbitrary adversarial input", "anchors": ["encoding/protobuf/unaggregated_iterator.go: decodeSize, decodeMessage", "encoding/migration/unaggregated_iterator.go: decodeProtocolType"]}
{"id": "C51", "title": "Msgpack messages round-trip", "statement": "Decoding the msgpack encoding of any sequence of unaggregated metrics (with or without policies) or of aggregated metrics with storage policies yields the same sequence; known resolutions and retentions are abbreviated without loss.", "quantifier": "every sequence of messages", "why_tests_cant": "unbounded", "anchors": ["encoding/msgpack/base_encoder.go", "encoding/msgpack/base_iterator.go", "encoding/msgpack/unaggregated_encoder.go", "encoding/msgpack/unaggregated_iterator.go", "encoding/msgpack/aggregated_encoder.go", "encoding/msgpack/aggregated_iterator.go"]}
{"id": "C52", "title": "Msgpack decoders tolerate newer writers", "statement": "Extra trailing fields added by newer writers to any object are skipped without affecting the decoded value or the following messages; messages of a higher version are skipped or rejected according to the option.", "quantifier": "every message and every list of extra fields", "why_tests_cant": "unbounded nesting", "anchors": ["encoding/msgpack/base_iterator.go: skip, checkExpectedNumFieldsForType", "encoding/msgpack/unaggregated_iterator.go: decodeRootObject"]}
{"id": "C53", "title": "A decoded message depends only on its own bytes", "statement": "What the decoders report for a message depends only on that message's bytes, not on earlier messages decoded by the same iterator. (Refuted for the policies list of msgpack metrics sent without policies, and for a protobuf message that announces a type but lacks its body.)", "quantifier": "every pair of streams with a common message", "why_tests_cant": "history dependence over unbounded streams", "anchors": ["encoding/msgpack/unaggregated_iterator.go: decodeMetric, decodePoliciesList", "encoding/protobuf/reset.go"]}
{"id": "C54", "title": "Mixed streams dispatch to the right decoder", "statement": "In a stream that interleaves messages of the msgpack encoder and of the protobuf encoder every message is decoded by its own protocol's decoder: the iterator delivers exactly the messages sent, in order, msgpack ones with their policies converted to staged metadatas, then reports the end of the stream. A stream cut anywhere yields exactly the messages it holds whole. On any other input iteration ends.", "quantifier": "every interleaving of messages, every point where the stream is cut, every input", "why_tests_cant": "unbounded", "anchors": ["encoding/migration/unaggregated_iterator.go"]}
{"id": "C55", "title": "Raw metric fields can be read in any order", "statement": "The lazily decoded ID, time and value of a raw aggregated metric are those of the encoded metric, in whatever order and however often the accessors are called.", "quantifier": "every metric and every sequence of accessor calls", "why_tests_cant": "unbounded call sequences on a stateful decoder", "anchors": ["encoding/msgpack/raw_metric.go"]}
{"id": "C56", "title": "Rates are computed only from increasing time", "statement": "The per-second transformation returns an empty datapoint unless time increased (by less than 2^63 nanoseconds) and the value did not decrease, in which case it is the increase divided by the elapsed seconds, non-negative; the absolute transformation returns a non-negative value; transformation type codes convert to protobuf and back.", "quantifier": "every pair of datapoints", "why_tests_cant": "all of float64 x int64", "anchors": ["transformation/binary.go: perSecond", "transformation/unary.go: absolute", "transformation/type.go"]}
{"id": "C57", "title": "Metric and message type codes convert faithfully", "statement": "Metric types, drop policies and aggregation types convert to their protobuf codes and back without change; unknown metric and aggregation codes are errors (drop policies are converted unchecked). Metric types are printed and parsed by the names counter, timer and gauge only.", "quantifier": "every code", "why_tests_cant": "all 32-bit codes", "anchors": ["metric/types.go", "policy/drop_policy.go", "aggregation/type.go: Proto, NewTypeFromProto"]}
{"id": "C58", "title": "The latest view shows exactly the live rules", "statement": "The latest view of a rule set has exactly one entry for each live rule, with the content of its newest snapshot, sorted by rule name; no deleted rule is shown (for rule sets with distinct rule IDs).", "quantifier": "every rule set, in particular every one reached by edits", "why_tests_cant": "unbounded histories and rule sets", "anchors": ["rules/ruleset.go: Latest, latestMappingRules, latestRollupRules", "rules/mapping.go: history, mappingRuleView", "rules/view/ruleset.go: Sort"]}
{"id": "C59", "title": "Histories are reported newest first and clones are faithful", "statement": "The history of a rule lists all its snapshots, newest first, with their content; a clone of a rule set is equal to the original.", "quantifier": "every rule set with distinct rule IDs", "why_tests_cant": "unbounded histories", "anchors": ["rules/ruleset.go: MappingRules, RollupRules, Clone", "rules/mapping.go: history, clone", "rules/rollup.go"]}
{"id": "C60", "title": "An edit does exactly what it is asked to", "statement": "An addition succeeds exactly if its filter is well formed and no live rule has the name (looking at the first rule of that name), and then creates a rule or revives the dead one with exactly the requested content; an update succeeds exactly if the filter is well formed and the ID exists and appends exactly the requested content; a deletion succeeds exactly if the ID exists and is live and appends a tombstone that keeps name and filter; nothing else changes.", "quantifier": "every rule set, edit and content", "why_tests_cant": "all contents and all histories", "anchors": ["rules/ruleset.go: AddMappingRule, UpdateMappingRule, DeleteMappingRule, AddRollupRule, UpdateRollupRule, DeleteRollupRule", "rules/mapping.go", "rules/rollup.go"]}
{"id": "C61", "title": "Each metric type accepts the documented aggregation types", "statement": "A list of aggregation types is accepted for gauges exactly if every type is a defined non-quantile type, for counters exactly if in addition none is 'last', for timers exactly if none is 'last'; the default types are accepted.", "quantifier": "every list of type codes", "why_tests_cant": "all lists of 32-bit codes", "anchors": ["aggregation/type.go: IsValidForGauge, IsValidForCounter, IsValidForTimer"]}
{"id": "C62", "title": "Legacy stored rules keep their meaning", "statement": "A legacy list of policies is accepted exactly if each policy is readable and all have the same aggregation ID, and means that ID with the distinct storage policies, finest resolution first and longest retention first; a legacy rollup target means a single rollup with the given name, the tags sorted.", "quantifier": "every legacy list of policies and target", "why_tests_cant": "all lists, in particular duplicates and mixed aggregation IDs", "anchors": ["rules/convert.go: toAggregationIDAndStoragePolicies", "rules/rollup_target.go: newRollupTargetFromV1Proto"]}
{"id": "C63", "title": "What passes validation can be read back", "statement": "A rule set that passes validation can be written to the store and read back. (Refuted: a live rollup rule without targets passes, and so does a rule set with an unreadable snapshot that is not the newest of its rule; proved when live rollup rules have targets and the older snapshots are readable, in particular when every single edit is validated.)", "quantifier": "every rule set, validator configuration whose storage policies are storable, and history of validated edits", "why_tests_cant": "all rule sets and histories", "anchors": ["rules/validator/validator.go: Validate", "rules/ruleset.go: Proto, NewRuleSetFromProto", "rules/store/kv/store.go"]}
{"id": "C64", "title": "The matcher serves matches against the latest rules", "statement": "In every interleaving of namespace updates, rule set updates, matches and cache maintenance, whenever the cache has been told about all rule sets processed for a namespace, what the matcher serves for a metric of the namespace is a match of that metric against the rule set processed last, either in the window asked for or not expired at the end of that window; metrics of unknown namespaces get the empty result; and when no update is being processed this holds for every match. The namespace is the one the metric's own ID names: the value of its first namespace tag, the default namespace if it has none; and nothing is served that was not asked for.", "quantifier": "every interleaving, metric and window", "why_tests_cant": "unbounded concurrent histories through two components", "anchors": ["matcher/match.go: ForwardMatch, NewMatcher", "matcher/namespaces.go: process", "matcher/ruleset.go: process", "matcher/cache/cache.go"]}
{"id": "C65", "title": "Stored rule sets and namespaces survive their byte format", "statement": "A rule set or list of namespaces that can be stored is written to bytes without error, and the bytes are read back as the same rules (as in C36 and C39); so is every message of the current or a legacy form without nil elements and with non-negative aggregation type codes; writing a message that has a nil element anywhere panics; and reading arbitrary bytes in which no length is close to 2^63 ends with a message or an error, never a panic.", "quantifier": "every rule set, history of edits, message and byte string", "why_tests_cant": "unbounded nesting of variable-length encodings; all byte strings", "anchors": ["generated/proto/rulepb/rule.pb.go: RuleSet.Marshal, RuleSet.Unmarshal and of the messages within", "generated/proto/rulepb/namespace.pb.go", "generated/proto/pipelinepb/pipeline.pb.go", "generated/proto/policypb/policy.pb.go", "rules/ruleset.go: Proto, NewRuleSetFromProto"]}
{"id": "C66", "title": "Messages of newer writers are understood", "statement": "A rule set, namespace list or metric whose bytes carry fields this version does not know (at any place, at any depth, of any proto3 wire type), or whose fields of different numbers come in another order, is read exactly as without them: stored rule sets and namespaces read back the same, and a stream's messages are all delivered. Everything this version writes is a sequence of fields as its .proto files describe, so it has such forms.", "quantifier": "every message, every set of added fields at every position and depth, every order of fields", "why_tests_cant": "unboundedly many placements of unknown fields in unboundedly nested messages", "anchors": ["generated/proto/*/*.pb.go: Unmarshal, skipMetric and its copies", "generated/proto/*/*.proto", "encoding/protobuf/unaggregated_iterator.go: Next"]}
{"id": "C67", "title": "Written rules reach the metrics", "statement": "A matcher that follows the store through watches (whose values may arrive late, be skipped, repeated or reordered) only ever uses rules that the store held for that namespace. When it is at rest and has the version in the store, every match it serves, from the cache or not, is one against the complete rules in the store, from a time that was asked for to the end of the window asked for or later (empty if the store has none); so rules written successfully and not overwritten since are the ones metrics are matched against, and within the limits of C29 a time in the window gets the pipelines of a match at that very time. From any state at rest the delivery of the present values brings the matcher to the store's version.", "quantifier": "every history of writes, deliveries in any order, matches, cache operations and failures of the store", "why_tests_cant": "unbounded concurrent histories through store, watches, matcher and cache", "anchors": ["rules/store/kv/store.go", "matcher/config.go: NewOptions", "matcher/match.go: ForwardMatch", "matcher/namespaces.go: process", "matcher/ruleset.go: process", "matcher/cache/cache.go", "rules/ruleset.go: ActiveSet, ToMutableRuleSet"]}
{"id": "C68", "title": "Rule sets and changes survive being sent as JSON", "statement": "A rule set view, a set of rule changes or a list of namespaces whose texts are UTF-8, whose numbers fit their Go types and whose aggregations, operations and precisions are valid is written as JSON and read back as itself, nil pointers included (operations lose only payloads that do not belong to their kind); in particular what a storable rule set shows as its latest rules. A view is refused for writing exactly when one of its aggregation IDs or operations is invalid. Whatever document is accepted, what is read is valid and is read again as itself after being written; unknown fields, the order of fields and the case of keys never matter, at any depth.", "quantifier": "every view, change, namespace list and JSON document", "why_tests_cant": "unbounded nesting and all documents of newer writers", "anchors": ["rules/view/*.go: json tags", "rules/view/changes/*.go: json tags", "aggregation/id.go: MarshalJSON, UnmarshalJSON", "aggregation/type.go: MarshalJSON, UnmarshalJSON", "policy/storage_policy.go: MarshalJSON, UnmarshalJSON", "transformation/type.go: MarshalJSON, UnmarshalJSON", "pipeline/type.go: MarshalJSON, UnmarshalJSON of OpUnion, RollupOp, Pipeline", "rules/ruleset.go: Latest"]}
{"id": "C69", "title": "Comparing and sorting views and changes", "statement": "Two rule views are equal exactly when ID, name, filter and contents agree, storage policies and tags in any order, whoever wrote them and whenever they take effect; this is an equivalence and a rule sent as JSON equals the one read. Sorting a view keeps its rules and orders them by name; sorting changes keeps them and lists additions by name, then changes by name, then deletions by ID, provided additions and changes carry a rule and deletions an ID only.", "quantifier": "every pair of views, every list of rules or changes, every sorting algorithm that keeps the contract of sort.Sort", "why_tests_cant": "all pairs and all orders", "anchors": ["rules/view/mapping.go: Equal", "rules/view/rollup.go: Equal", "rules/view/ruleset.go: Sort", "rules/view/changes/mapping.go: Less", "rules/view/changes/rollup.go: Less", "rules/view/changes/ruleset.go: Sort"]}
{"id": "C70", "title": "The namespace validator follows its key and closes cleanly", "statement": "A validator that follows a key of the key-value store answers, in every interleaving of writes to the key, its own goroutine, calls of Validate and calls of Close, by the default namespaces or by a list the key has held; when it has nothing left to do it answers by the latest value of the key (the default namespaces if there is none), a value that is not a list changes no answer; the closed error is given only after Close was called, always once a call of Close has returned, and then for ever. No schedule deadlocks: with no more writes every call of Close returns after finitely many steps, the done channel is closed at most once, and when all calls of Close have returned the goroutine has ended and never acts again. A static validator is configured by one of two words and gives every namespace the same answer.", "quantifier": "every schedule of writers, callers and the goroutine", "why_tests_cant": "all interleavings, all numbers of concurrent calls", "anchors": ["rules/validator/namespace/kv/validator.go: NewNamespaceValidator, Validate, Close, watchRuntimeConfig, processUpdate", "rules/validator/namespace/static/validator.go: Validate"]}
{"id": "C71", "title": "What the rules decide reaches the aggregator", "statement": "Whatever bytes are accepted as a stored rule set, every forward, complete or reverse match against it, for every metric and time range, yields only metadatas that the unaggregated encoder can encode; so, whatever is written to the store and however deliveries, cache operations and requests interleave, every result that a matcher hands out can be sent, for the metric itself and for each rollup metric, with a counter, batch timer or gauge value; and the receiving iterator delivers exactly these messages (a gauge of minus zero as zero), then end of stream. What was read can also be written again.", "quantifier": "every byte string accepted as rule set, metric, range, match kind; every history of writes, deliveries, matches and cache operations; every program over encoders", "why_tests_cant": "an end-to-end claim over all rule sets, histories and messages", "anchors": ["rules/ruleset.go: NewRuleSetFromProto, ActiveSet", "rules/active_ruleset.go: ForwardMatch, ReverseMatch", "rules/result.go: ForExistingIDAt, ForNewRollupIDsAt", "matcher/match.go: ForwardMatch", "metadata/metadata.go: StagedMetadatas.ToProto", "encoding/protobuf/unaggregated_encoder.go: EncodeMessage", "encoding/protobuf/unaggregated_iterator.go: Next"]}
{"id": "C72", "title": "The msgpack readers accept nothing but the format", "statement": "Whatever bytes an unaggregated or aggregated msgpack iterator is given, its loop sees exactly the messages of a stream in the documented format that the bytes start with (interspersed with messages of newer versions only if these are ignored), and stops where no message of the format follows; a call of Next succeeds exactly if one does. The format is unambiguous: at most one message, of one length, starts a given input. A raw metric yields ID, time and value exactly if its bytes start with a version of at most 1, an array of three or more elements, and these three; what follows is not looked at.", "quantifier": "every byte string, with or without ignoring newer versions", "why_tests_cant": "all inputs, including damaged and hostile ones; the format lets values take many forms and objects carry any extra values", "anchors": ["encoding/msgpack/base_iterator.go", "encoding/msgpack/unaggregated_iterator.go: Next", "encoding/msgpack/aggregated_iterator.go: Next", "encoding/msgpack/raw_metric.go: Metric", "encoding/msgpack/schema.go"]}
{"id": "C73", "title": "Protobuf messages mean what the protobuf guide says", "statement": "Bytes are accepted as a rule set, as a list of namespaces or as the message of a metric stream exactly if they are a message in the protobuf encoding of the .proto file, and are then read as the message they denote: a field of an unknown number is passed over whatever it holds, groups included; of a field that is not repeated the last occurrence counts and an absent one is zero; several pieces of an embedded message are read as one; a repeated field has the values of all its occurrences in order, packed or not; numbers may be written with superfluous bytes. No bytes denote two messages. A message that is used again for reading is read alike, except that a member the bytes lack is left empty instead of absent if it was present before. (The condition for rejecting everything else is that no number in the bytes, added to the length of the input, passes 2^63-1.)", "quantifier": "every byte string", "why_tests_cant": "all inputs: any order, repetition, splitting and padding of fields, from any other writer of the format", "anchors": ["generated/proto/rulepb/*.pb.go: Unmarshal, skipRule", "generated/proto/metricpb/*.pb.go: Unmarshal, skipComposite", "generated/proto/policypb/policy.pb.go: Unmarshal", "generated/proto/pipelinepb/pipeline.pb.go: Unmarshal", "generated/proto/aggregationpb/aggregation.pb.go: Unmarshal", "encoding/protobuf/reset.go"]}
{"id": "C74", "title": "The protobuf iterator yields exactly what the stream says", "statement": "Whatever bytes an unaggregated protobuf iterator reads, it yields the metrics of the frames at the start of the bytes, in order, and then stops with the error that the rest calls for: end of stream when the bytes end (also inside a size, or after one), an overflow error for a size beyond 64 bits, an error for a size above the maximum, an unexpected end inside a frame, an error for a frame that is not a message, of unknown type, or whose metric or metadatas are invalid. It panics exactly if a size is negative after valid frames. Each frame yields the metric of the member its type names, with storage policies of known precision and pipelines of known operations; a member it lacks counts as empty if an earlier frame had it. All bytes have exactly one such reading. (Condition as before: no number in the bytes, added to the length of the input, passes 2^63-1.)", "quantifier": "every byte string and every maximum message size", "why_tests_cant": "all inputs, including truncated, damaged and hostile ones, and all earlier contents of the reused message", "anchors": ["encoding/protobuf/unaggregated_iterator.go: Next, decodeSize, decodeMessage", "metric/unaggregated/types.go: FromProto", "metric/aggregated/types.go: FromProto", "metadata/metadata.go: FromProto", "policy/storage_policy.go: FromProto", "policy/resolution.go: FromProto", "pipeline/applied/type.go: FromProto"]}
{"id": "C75", "title": "Staged policies survive JSON", "statement": "Staged policies, and versioned lists of them, whose precisions and aggregation types exist are read from JSON exactly as they were written, empty lists included, whatever the cutover time, tombstone flag and number of policies. Whatever document is accepted, the policies read have existing precisions and aggregation types. A policy whose aggregation ID has an undefined type is written without an error but makes the staged policies unreadable.", "quantifier": "every list of staged policies, every JSON document", "why_tests_cant": "all policies, IDs and documents", "anchors": ["policy/policy.go: MarshalJSON, UnmarshalJSON, String, ParsePolicy", "policy/staged_policy.go: MarshalJSON, UnmarshalJSON, VersionedPoliciesList", "aggregation/id.go: String"]}
{"id": "C76", "title": "What is written means what was written", "statement": "What is written as a rule set, as a list of namespaces or as a metric stream means, read by the protobuf encoding guide alone and not by this project's own reader, exactly what was written, and nothing else: a rule set or namespaces whose aggregation codes are not negative and whose lists have no absent elements denotes itself; each message of a sendable metric denotes its type, metric and metadatas; the bytes of an encoder, also of one among many over a shared pool of buffers, are a stream whose one reading is the metrics that were sent, in order, followed by the end (a gauge or timed value of minus zero as zero). So readers in other languages see the same. (Condition: fewer than 2^63 bytes, and a maximum message size below 2^34.)", "quantifier": "every rule set, list of namespaces, sequence of sendable metrics and program over encoders", "why_tests_cant": "all messages; a round trip through one's own reader cannot tell whether both sides share a mistake about the format", "anchors": ["generated/proto/rulepb/*.pb.go: MarshalTo, Size", "generated/proto/metricpb/*.pb.go: MarshalTo, Size", "generated/proto/policypb/policy.pb.go: MarshalTo", "generated/proto/pipelinepb/pipeline.pb.go: MarshalTo", "generated/proto/aggregationpb/aggregation.pb.go: MarshalTo", "encoding/protobuf/unaggregated_encoder.go: EncodeMessage, encodeMessageSize"]}
{"id": "C77", "title": "Rule sets, views and active sets do not disturb each other", "statement": "A program may hold any number of rule sets, clones of them, views of their rules and active sets taken from them, and load, clone, edit, inspect and activate in any order; although Go shares memory between these, each behaves as a value of its own: every rule set is exactly what its own edits made of it, whatever happened to its clones and to the views taken from it; a view handed out is what it was when handed out, or what its holder wrote into it, and writing into it changes nothing else, as long as it was not passed to Add or Update of a rule, after which it must be left alone; an active set keeps the rules it had when it was taken whatever edits follow, unless a rule was not in effect yet at that time. No call panics, and each edit succeeds exactly when the same edit of plain values does.", "quantifier": "every sequence of loads, clones, edits, views, writes into views and active sets; every growth policy of append", "why_tests_cant": "aliasing through pointers and in-place appends shows only in particular interleavings of edits with capacities of slices; all of them are covered", "anchors": ["rules/ruleset.go: Clone, ActiveSet, MappingRules, RollupRules, AddMappingRule, UpdateMappingRule, DeleteMappingRule, AddRollupRule, UpdateRollupRule, DeleteRollupRule, Delete, Revive", "rules/mapping.go: clone, addSnapshot, markTombstoned, revive, activeRule, mappingRuleView", "rules/rollup.go: clone, addSnapshot, markTombstoned, revive, activeRule, rollupRuleView", "rules/rollup_target.go: clone", "pipeline/type.go: Clone"]}
{"id": "C78", "title": "Closed iterators yield nothing, and can be used again after a reset", "statement": "After Close, whatever was left in the stream, a msgpack, aggregated msgpack, protobuf or mixed-stream iterator yields nothing more, gives up the metric and metadatas it held, reports no error, and does not change on further calls of Next or Close; the mixed-stream iterator closes both the iterators it uses and consumes nothing. A closed msgpack iterator that is reset to a new stream yields exactly what was written there.", "quantifier": "every state of an iterator, every later stream", "why_tests_cant": "any state at which Close may be called, including the middle of a stream and after errors", "anchors": ["encoding/msgpack/unaggregated_iterator.go: Close, Next, Reset", "encoding/msgpack/aggregated_iterator.go: Close, Next, Reset", "encoding/protobuf/unaggregated_iterator.go: Close, Next", "encoding/migration/unaggregated_iterator.go: Close, Next"]}
{"id": "C79", "title": "Exactly the meaningful stored rule sets are accepted, and mean what they say", "statement": "A stored rule set is accepted exactly if it stands for one, and is read as that one: nothing is missing in its lists; every storage policy has a resolution of one of the eight known precisions and a retention; aggregation types are valid and become the ID with exactly their bits; pipelines have only operations of the three kinds with the content of that kind, the tags of rollups sorted; a mapping rule takes its policies from the legacy list if there are any, which must then all have the same aggregation types, and otherwise from storage policies and aggregation types, and has drop policy 0, 1 or 2, none if it has policies, and one or the other unless deleted; a rollup rule takes legacy targets if there are any and otherwise current ones, and has at least one unless deleted; every filter can be parsed; names, times, authors and flags are taken as they are. No stored rule set stands for two. The same holds from the stored bytes, read by the protobuf encoding guide. Namespaces are accepted as they are unless an element is missing. (Drop policies are 32-bit numbers.)", "quantifier": "every message and byte string, of the current or a legacy form, including inconsistent ones", "why_tests_cant": "all messages: any combination of legacy and current fields, missing elements and undefined codes", "anchors": ["rules/ruleset.go: NewRuleSetFromProto", "rules/mapping.go: newMappingRuleFromProto, newMappingRuleSnapshotFromProto", "rules/rollup.go: newRollupRuleFromProto, newRollupRuleSnapshotFromProto", "rules/rollup_target.go: newRollupTargetFromV1Proto, newRollupTargetFromV2Proto", "rules/convert.go: toAggregationIDAndStoragePolicies", "pipeline/type.go: NewPipelineFromProto, NewOpUnionFromProto", "policy/storage_policy.go: NewStoragePolicyFromProto", "aggregation/id.go: NewIDFromProto", "rules/namespace.go: NewNamespaces"]}
{"id": "C80", "title": "A configuration of aggregation types means what it says", "statement": "A YAML configuration of aggregation types is accepted exactly if every type named in it is one of the 22 documented names and every transformation noop, empty or suffix, and options can then be made from it. The default types of counters, timers and gauges are the ones listed in the order listed, or the documented defaults where nothing is listed; exactly these count as contained in the defaults; the quantiles are those of the timers' default types, with 0.5 once. The suffix of a type is the documented one, unchanged, empty or behind a dot as configured; it leads back to the type, except where suffixes are empty, when the empty suffix is taken for Last and no other is known. The percentages in suffixes are right for the float64 numbers the code computes with.", "quantifier": "every configuration document, metric type, aggregation type and suffix", "why_tests_cant": "all combinations of configured and absent settings, and all names including misspelt ones", "anchors": ["aggregation/type_config.go: NewOptions, UnmarshalYAML, TransformFn", "aggregation/types_options.go: SetDefaultCounterAggregationTypes, TypeStringForTimer, TypeForTimer, Quantiles, IsContainedInDefaultAggregationTypes, defaultQuantileTypeStringFn", "aggregation/type.go: UnmarshalYAML, Quantile"]}
{"id": "C81", "title": "Matching changes nothing, and a match result is its caller's own", "statement": "A forward or reverse match never panics, returns the result the rules of the active set call for, and writes to no memory that existed before: neither to the rules, nor to the package's default and drop pipelines, nor to results handed out earlier. The result it returns consists of memory made during the call, except that it may share the package's default and drop pipelines. So the results of any sequence of matches on any active sets share nothing but these, and whoever writes into one result, anywhere but in these, changes neither the other results nor the rules. (Writing into a result does change that result: ApplyOrRemoveDropPolicies works in place.)", "quantifier": "every memory, active rule set, metric ID, match range and sequence of matches; every growth policy of append", "why_tests_cant": "results are built by appends, in-place shifts and shared package variables; whether two of them share memory depends on capacities and on which rules match", "anchors": ["rules/active_ruleset.go: ForwardMatch, ReverseMatch, forwardMatchAt, mappingsForNonRollupID, toRollupResults, mergeResultsForExistingID, mergeResultsForNewRollupIDs, toStagedMetadata", "metadata/metadata.go: Clone, ApplyOrRemoveDropPolicies, IsDropPolicySet, DefaultPipelineMetadata, DropPipelineMetadatas", "rules/match_result.go: MatchResult, ForExistingIDAt, ForNewRollupIDsAt"]}
{"id": "C82", "title": "Editing and matching do not disturb each other", "statement": "A program may hold rule sets, clones, views and active sets as in C77, match metrics against any of the active sets at any time, keep the results and write into them. Although all of this lives in one memory: no match panics; every match against an active set whose rules were all in effect when it was taken gives the result that the rule set as it was then calls for, whatever edits, clones, views, matches and writes came in between; every result whose holder has not written into it stays what it was when it was returned, whatever edits and matches follow and whatever holders write into other results and into views of their own; and what is written into results, the package's default and drop pipelines excepted, changes no rule set, view or active set.", "quantifier": "every sequence of loads, clones, edits, views, writes into views, active sets, matches and writes into results; every growth policy of append", "why_tests_cant": "sharing of memory between rules and results shows only for particular interleavings of edits, matches and writes", "anchors": ["rules/ruleset.go: ActiveSet, Clone, AddMappingRule, UpdateMappingRule, DeleteMappingRule, AddRollupRule, UpdateRollupRule, DeleteRollupRule", "rules/active_ruleset.go: ForwardMatch, ReverseMatch", "rules/mapping.go: activeRule, activeSnapshot", "rules/rollup.go: activeRule, activeSnapshot", "metadata/metadata.go: DefaultPipelineMetadatas, DropPipelineMetadatas"]}
{"id": "C83", "title": "What a msgpack iterator shows stays put until it decodes again", "statement": "Unaggregated msgpack iterators use their buffers again for every message, take large batches of timer values from a pool that they share, and share the default policies list with the whole program. Still: Next never panics and shows what the stream calls for; the metric and the policies that an iterator showed stay as they are, whatever other iterators do and even if the iterator is reset or closed, until it decodes the next message or their holder writes to them; a large batch stays as it is until it is given back or written to, even while its iterator decodes on, and no two batches that are held, or held and in the pool, share memory; the default policies list never changes; and the outcomes of the calls of Next on an iterator are those it would have alone, so that over what the encoder wrote it shows exactly the metrics sent and then ends.", "quantifier": "every sequence of making, calling, resetting and closing any number of iterators over any bytes, of giving back large batches, and of writes by holders; every growth policy of append and every choice of the pool", "why_tests_cant": "reuse of memory shows only for particular sequences of sizes, capacities and pool choices", "anchors": ["encoding/msgpack/unaggregated_iterator.go: Next, Metric, PoliciesList, Reset, Close, decodeID, decodeBatchTimer, decodePoliciesList, decodeStagedPolicies", "metric/unaggregated/types.go: MetricUnion, BatchTimer", "policy/staged_policy.go: DefaultPoliciesList, Reset"]}
{"id": "C84", "title": "The tests for default and dropped metadata are exact", "statement": "Staged metadatas are reported as the default exactly if they are one live stage from time zero on with one pipeline that has the default aggregation, no storage policies, no operations and no drop policy; a drop policy is reported as applied exactly if there is one live stage with one pipeline that has nothing but a drop policy; the same for one stage, one metadata and one pipeline, and for the older lists of staged policies, whose equality is exact too. Nothing is reported as both.", "quantifier": "every list of staged metadatas and staged policies", "why_tests_cant": "all combinations of fields, only one of which is the default", "anchors": ["metadata/metadata.go: IsDefault, IsDropPolicyApplied", "policy/staged_policy.go: IsDefault, Equals", "policy/policy.go: IsDefaultPolicies"]}
{"id": "C85", "title": "Edits take effect when the propagation delay has passed", "statement": "An edit requested at time t with the metadata of the update helper for a delay d leaves every match of times before t + d as it was; at every time from t + d on the rule that was added or updated is what the edit says, and a deleted rule is deleted, until a later edit; rule and rule set record the times t and t + d and the author. Requests with one delay in the order of their times keep every history in the order of time. (Times do not overflow int64.)", "quantifier": "every rule set, edit, request time, delay, author, metric and match range; every sequence of requests", "why_tests_cant": "all times of matching before and after the edit and all histories", "anchors": ["rules/ruleset.go: RuleSetUpdateHelper.NewUpdateMetadata, AddMappingRule, UpdateMappingRule, DeleteMappingRule, AddRollupRule, UpdateRollupRule, DeleteRollupRule, ActiveSet", "rules/active_ruleset.go: ForwardMatch"]}
{"id": "C86", "title": "No call into the matcher or its cache blocks for ever", "statement": "Whatever calls are made to the matcher, its namespaces and its cache, and whatever updates arrive, and however the goroutines are scheduled: as long as a call has not returned, some goroutine can go on; without new calls the goroutines cannot go on for ever; and when nothing goes on, every call has returned and given up its locks, and the cache's goroutines have nothing left to do. No call unlocks what it has not locked, and the channel that stops the goroutines is closed once however often Close is called; when the cache has been closed and the calls have returned, its goroutines have returned. Whoever holds a lock for writing holds it alone.", "quantifier": "every set of concurrent calls and updates, everything they may find in the cache and the namespaces, and every schedule; Go's reader-writer locks with waiting writers keeping readers out", "why_tests_cant": "deadlocks need particular interleavings of matches, rule set updates, namespace updates and Close", "anchors": ["matcher/cache/cache.go: ForwardMatch, Register, Refresh, Unregister, Close, tryGetWithLock, setWithLock, promote, invalidateWithLock, evict, doEvict, delete, doDelete, notifyEviction, notifyDeletion", "matcher/namespaces.go: Open, Version, ForwardMatch, ReverseMatch, Close, toNamespaces, process", "matcher/ruleset.go: Namespace, Version, CutoverNanos, Tombstoned, ForwardMatch, ReverseMatch, toRuleSet, process", "matcher/match.go: ForwardMatch, Close"]}
{"id": "C87", "title": "The matcher and its cache can be used from any number of goroutines without data races", "statement": "Whatever calls are made to the matcher, its namespaces and its cache, and whatever updates arrive, and however the goroutines are scheduled: no two goroutines are ever about to access the same shared location, one of them for writing. This covers the maps of cached results, although the cache's deleting goroutine reads the maps it has taken without the cache's lock: nobody writes a map once it has been taken.", "quantifier": "every set of concurrent calls and updates, everything they may find in the cache and the namespaces, and every schedule", "why_tests_cant": "a race needs two accesses at the same time; the race detector sees only the schedules that a test happens to run", "anchors": ["matcher/cache/cache.go: ForwardMatch, Register, Refresh, Unregister, Close, tryGetWithLock, setWithLock, refreshWithLock, add, promote, invalidateWithLock, doEvict, doDelete", "matcher/cache/list.go: lockedList", "matcher/namespaces.go: Version, ruleSet, Close, toNamespaces, process", "matcher/ruleset.go: Namespace, Version, CutoverNanos, Tombstoned, ForwardMatch, ReverseMatch, toRuleSet, process"]}
{"id": "C88", "title": "Users of pooled msgpack encoders do not see each other's data", "statement": "The bytes of a buffered encoder are exactly what has been written to it since it was made or reset, whatever happens to other encoders and however encoders go through the pool. A slice of its bytes stays as it is, even while its user writes on, until the encoder is reset, closed or given back. The pool never hands out an encoder that somebody has, keeps no encoder twice and none whose buffer is larger than the maximum capacity. Closing an encoder twice has no further effect. (Users use an encoder only between taking it and closing it or giving it back, reset what they take from the pool, and do not close it again once somebody else may have taken it.)", "quantifier": "every sequence of making, taking, resetting, writing, reading, closing and giving back by any number of users, every buffer growth, every choice of the pool", "why_tests_cant": "sharing shows only for particular orders of closing and taking and particular sizes", "anchors": ["encoding/msgpack/buffered_encoder.go: NewPooledBufferedEncoderSize, Bytes, Reset, Close", "encoding/msgpack/buffered_encoder_pool.go: Get, Put"]}
{"id": "C89", "title": "Protobuf iterators, encoders and buffers that share a pool do not disturb each other", "statement": "The calls of a protobuf iterator return what they would return if it were alone, whatever is done meanwhile with other iterators, encoders, relinquished buffers and other users of the pool of byte slices, even between reading a message into the buffer and unmarshalling it. So over a stream that reads as some messages and an error, an iterator shows a first part of them, one by one, and once Next has returned false all of them with that error, unless it was closed. Iterators do nothing to encoders and relinquished buffers, and nothing panics but what would panic without the others. (An iterator is used by one goroutine; other users of the pool write only to what they have taken from it; encoders have limits below 16 GB.)", "quantifier": "every sequence of operations on any number of iterators, encoders, relinquished buffers and other users of the pool, every stream and buffer size, every choice of the pool", "why_tests_cant": "one array in two hands shows only for particular sizes, orders of closing and taking, and interleavings inside Next", "anchors": ["encoding/protobuf/unaggregated_iterator.go: NewUnaggregatedIterator, Next, Current, Close, decodeMessage", "encoding/protobuf/buffer.go: ensureBufferSize, allocate, Close", "encoding/protobuf/unaggregated_encoder.go: EncodeMessage, Relinquish, Truncate, Reset"]}
{"id": "C90", "title": "Tag look-ups and filters in any number of goroutines do not disturb each other through the pool of tag iterators", "statement": "Looking up the value of a tag, asking whether there is the rollup tag, matching a tags filter, matching a rollup target and reading all tags with an iterator give what they give alone, whatever other such calls run at the same time, however their steps are interleaved and whatever iterators the pool hands out and keeps. Each call returns after a number of its own steps that depends on the length of its tags only. No iterator is ever in the hands of two calls, or of a call and the pool. (Users close an iterator once.)", "quantifier": "every set of concurrent calls, IDs, filters and targets, every schedule, every choice of the pool", "why_tests_cant": "sharing an iterator shows only for particular interleavings and choices of the pool", "anchors": ["metric/id/m3/id.go: TagValue, IsRollupID, NewSortedTagIterator, NewPooledSortedTagIterator, Reset, Next, Current, Err, Close", "metric/id/tag.go: SortedTagIteratorPool", "filters/tags_filter.go: Matches", "rules/active_ruleset.go: matchRollupTarget", "matcher/config.go: NewOptions"]}
{"id": "C91", "title": "Pipelines and policies in YAML configuration mean what they mean in JSON", "statement": "A document without nulls whose keys are spelled as documented is accepted by UnmarshalYAML exactly when it is accepted by UnmarshalJSON, with the same value, for pipelines, aggregation IDs and lists of storage policies. The JSON form of a pipeline is itself a YAML document that is read as that pipeline, by Unmarshal and by UnmarshalStrict. What is accepted without nulls consists of operations that mean something. Strict reading refuses exactly the documents with unknown or repeated keys. The texts of aggregation types, transformations, metric types, storage policies, policies and drop policies are read as what they are the text of.", "quantifier": "every document, every pipeline, every policy, both modes of reading", "why_tests_cant": "the two readers are separate code; tests compare them on a few documents", "anchors": ["pipeline/type.go: AggregationOp.UnmarshalYAML, TransformationOp.UnmarshalYAML, RollupOp.UnmarshalYAML, OpUnion.UnmarshalYAML, Pipeline.UnmarshalYAML, rollupMarshaler, unionMarshaler", "aggregation/type.go: UnmarshalYAML", "aggregation/id.go: UnmarshalYAML", "transformation/type.go: UnmarshalYAML", "policy/storage_policy.go: UnmarshalYAML", "policy/policy.go: Policy.UnmarshalYAML, DropPolicy.UnmarshalYAML", "metric/types.go: UnmarshalYAML, ParseType"]}
{"id": "C92", "title": "The rule store and the matcher behave the same on bytes as on messages", "statement": "A key-value store that keeps the bytes rule sets and namespaces are marshalled to, including keys with damaged bytes or bytes of another type, behaves for all writers, readers and matchers like one that keeps the messages: writers are told the same, reads return the same, and a matcher that follows it has the same runs and gives the same answers. So what was written is read back, of two writes based on one version at most one succeeds and the other sets no key, and rules that were written are what metrics are matched against once the matcher has their version. (Numbers are those of the Go types, no message has 2^63 bytes, and no length in damaged bytes is close to 2^63.)", "quantifier": "every sequence of writes, lost requests and replies, every initial content of the store, every run of store and matcher", "why_tests_cant": "the composition of marshalling, versions, watches and matching over all histories and all damaged contents", "anchors": ["rules/store/kv/store.go: ReadNamespaces, ReadRuleSet, WriteRuleSet, WriteAll", "matcher/ruleset.go: toRuleSet", "matcher/namespaces.go: toNamespaces", "generated/proto/rulepb/rule.pb.go: Marshal, Unmarshal", "generated/proto/rulepb/namespace.pb.go: Marshal, Unmarshal"]}
