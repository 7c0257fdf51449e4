# Formal model of m3db/m3metrics in Rocq (Coq 8.16.1)

## Layout

| directory | content |
|---|---|
| `rocq/theories/Base` | byte strings, ordering, sorting; definitions and general lemmas not specific to m3metrics |
| `rocq/theories/Model` | the model: total Gallina functions transcribed from the Go code, one file per Go package or file, no proofs; every definition cites the Go file and lines |
| `rocq/theories/Spec` | small declarative specifications the theorems are stated against (no reuse of model helpers) |
| `rocq/theories/Proof` | lemmas, invariants, refinement proofs |
| `rocq/theories/Props` | the property theorems only: statement, `exact lemma`, a non-vacuity `Example`, `Print Assumptions` |

`properties.jsonl` lists the properties in English, `MANIFEST.json` maps them to theorem names,
`seeded/LOG.jsonl` records the wrong programs the theorems were tested against.

## Modelling conventions

* Byte strings are `list ascii`; `bytes.Compare` is lexicographic order on character codes.
* Go errors are values (`option`/`result`); `nil` is explicit where the code distinguishes it.
* `int64`/`time.Duration`/`int` are `Z` (unbounded) unless the property is about width, in which case the
  truncation is written out. `uint64` words of an aggregation ID are `N`, with a `< 2^64` hypothesis where it matters.
* `float64` values are opaque carriers (a type parameter, or the 64-bit pattern as `N`) except in the
  transformation model, where the arithmetic is abstracted by an explicit record of float operations.
* Slices are lists. Where the code recycles a slice by capacity, the model carries the stale content behind
  the slice's length explicitly. Where the code mutates in place, the model returns the new value.
* `sort.Sort` is an unspecified sorting procedure: theorems quantify over any function returning a sorted
  permutation, or use keys whose order is total, in which case the result is unique. Where the model needs a
  concrete one it uses insertion sort.
* External code (m3x time formatting, kv store, msgpack, protobuf runtime, xxhash) is an explicit argument or
  a small model of its documented behaviour, listed in the trusted base below.
* Concurrency is a state machine whose steps are the critical sections of the code; theorems quantify over all
  step sequences.

## Plan per property

* **C01 Aggregation types survive compression.** Model `Compress`/`Decompress`/`Contains` over N bit words; proof by induction over the list with `N.testbit` extensionality.
* **C02 Every aggregation ID decodes to at most one type list.** Same model; characterise decompression as filtering 0..63 by `testbit`; re-compress by bit extensionality.
* **C03 Aggregation type strings parse back.** Model names as byte strings, `ParseType` as lookup in the table built from names; list round trip by induction over join/split.
* **C04 Type suffix lookup inverts type suffix generation.** Model options as arbitrary tables of strings; `typeFor` as first-index search; proof from pairwise distinctness.
* **C05 Quantiles of a type list.** Model `PooledQuantiles` loop with its flag; compare with a declarative spec (filter/map with 0.5 kept once).
* **C06 Storage policy list equality is order-insensitive multiset equality.** Model `Less` and Equal via sorted copies; antisymmetric total order implies uniqueness of sorted permutations.
* **C07 Storage policies and policies survive their textual form.** Model printing and parsing over byte strings with duration printing/parsing as arguments assumed mutually inverse and separator free.
* **C08 Storage policies survive protobuf conversion.** Model proto messages as records of options; round trip by computation, stale target as explicit argument.
* **C09 Drop policies resolve by documented priority.** Model the counting loop and the downward removal loop; prove equal to the declarative spec.
* **C10 Drop policies resolve stage by stage in staged metadatas.** Same for staged metadatas.
* **C11 Filter patterns mean what the glob language says.** Model the compiler from patterns to filters and `Matches`; spec is an inductive language of patterns; prove equality on the class of patterns where the code is right, refute elsewhere.
* **C12 Filter combinators obey boolean algebra.** Model the combinators; boolean spec.
* **C13 Tag filters match by tag.** Model the merge loop of `Matches` with the iterator; spec by membership; induction over both lists.
* **C14 Tag filter strings parse to a map or fail.** Model the tokenizer; spec by declarative token predicate.
* **C15 Rollup IDs parse back to their name and tags.** Model ID construction and parsing over bytes; induction over the pair list.
* **C16 Rollup IDs are canonical and collision free.** Uniqueness of sorted permutations with distinct names plus injectivity from C15.
* **C17 Tag value lookup.** Model the iterator over bytes; spec over abstract pair lists.
* **C18 Pipeline equality is an equivalence and clones are equal.** Model operations and Equal/Clone; equivalence by induction.
* **C19 Rule pipelines survive protobuf conversion.** Model proto records for pipelines; round trip by induction.
* **C20 Metadata survives protobuf conversion whatever buffers are reused.** Model slices with stale tails; ToProto/FromProto with arbitrary stale targets; round trip by induction.
* **C21 Metadata cloning preserves every field.** Refutation with witness and positive theorem with the exact side condition.
* **C22 Legacy policies convert to metadata without loss.** Model the nested search/append loop; spec by membership, NoDup and first-occurrence order.
* **C23 A rule is in effect from its cutover.** Model `activeIndex`; spec by last index with cutover <= t.
* **C24 Trimming history does not change matching.** Model `ActiveSet` and matching; prove equality of all active snapshots for later times, then of results.
* **C25 Cutover search finds the next change.** Model the binary search loop with fuel-free well-founded recursion; spec by first index greater.
* **C26 Forward match of an existing metric at an instant.** Model `forwardMatchAt`; spec by filtering rules and removing equal pipelines.
* **C27 Drop-if-only-match drops only when nothing else matches.** Positive theorem for mapping rules, refutation with a rollup rule.
* **C28 Forward match results are time ordered and expire at the next change.** Model the window loop; induction over the remaining cutovers.
* **C29 The stage in effect is the right one.** Refutation by witness; positive theorem with side condition on equal cutovers; positive theorem for rollup IDs.
* **C30 Rollup IDs appear and disappear with their rules.** Model the merge of sorted ID lists; induction.
* **C31 Rollup targets match by tag presence.** Model the merge loop; spec by inclusion.
* **C32 Reverse match recovers the policies of a rollup ID.** Model reverse matching; refutation by witness; positive theorem for distinct names.
* **C33 Rule histories are append-only.** Model rule set edits as functions; prefix relation on histories is preserved by every step, induction over edit lists.
* **C34 Rule names stay unique under additions and deletions.** Invariant over edit sequences; refutation for rename.
* **C35 Deleting a rule set deletes every rule.** Model Delete/Revive; induction over rules.
* **C36 Rule sets survive protobuf conversion.** Model rule protos; exact characterisation of write-then-read as an equivalence, lifted from snapshots to rules to sets; re-reading is exact; edits keep sets readable by induction over the edits.
* **C37 Batch changes apply in order and all errors surface.** Model batch application as fold; refutation of atomicity by witness.
* **C38 Namespace life cycle.** State machine; refinement to a finite set of live names.
* **C39 Namespaces survive protobuf conversion.** int32 wrap written explicitly; round trip under bound; refutation beyond.
* **C40 Store writes are optimistic and atomic.** State machine of clients over a versioned kv store; invariant by induction over steps.
* **C41 The validator accepts exactly the documented rule sets.** Model the validator over views; spec as a Prop record; equivalence.
* **C42 The cache's linked list is a sequence.** Pointer heap model (finite map from addresses to nodes); refinement to a duplicate-free sequence.
* **C43 Cached results are what the source returned for that metric.** State machine of the cache with critical sections as steps; invariant.
* **C44 Refreshing purges stale results.** Same state machine with epochs.
* **C45 Cache eviction is bounded and least-recently-used.** Same state machine; eviction loop. Promotions carry the time they were made at, so that what the freshness durations save and what they cost are statements about the trace.
* **C46 The byte-keyed hash maps behave like maps.** Model linear probing over a partial map with wrapping 64-bit hashes; refutation by witness; refinement when collision free.
* **C47 Matcher follows the namespaces it watches.** State machine of namespace and rule set updates.
* **C48 Protobuf streams round-trip.** Byte level model of varints, of the generated marshal/unmarshal code (every field pattern once, every message as a list of fields) and of the framing; the encoders live in a system with an explicit heap, a shared pool that hands out arbitrary free arrays, and third parties writing to what they hold. Round trip by induction over the fields and over the frames.
* **C49 Message size limits are enforced and encoding failures leave no trace.** Same system; invariant that no array is owned twice; every operation refines an abstract effect on the visible contents.
* **C50 Decoding never crashes.** Decoder model with an explicit panic outcome and 64 bit wrap-around; two refutations; termination; no panic but for negative sizes when no number in the input overflows.
* **C51 Msgpack messages round-trip.** Byte level model of the msgpack primitives used and of the object schema; the format and the schema as relations; encoders write related bytes, decoders read whatever is related; induction over the stream; locality of every reader for cut streams.
* **C52 Msgpack decoders tolerate newer writers.** Same relations: every object may carry extra values, newer messages are an array of anything.
* **C53 A decoded message depends only on its own bytes.** Iterator model with its persistent state; refutation by witness; simulation between a new iterator and a used one whose leftovers are absent or empty.
* **C54 Mixed streams dispatch to the right decoder.** Model the dispatch on the first byte's lowest bit; varint of non-negative size is even, version byte is odd; induction over the items of a stream, reusing C48 and C51; cut streams and arbitrary input as well.
* **C55 Raw metric fields can be read in any order.** State machine of the lazy decoder; invariant.
* **C56 Rates are computed only from increasing time.** Model over an explicit float operations record, instantiated with Flocq-free abstract laws; case analysis.
* **C57 Metric and message type codes convert faithfully.** Finite tables over all integers.
* **C58 The latest view shows exactly the live rules.** Same edit model; the view as a permutation of the live newest snapshots, sorted.
* **C59 Histories are reported newest first and clones are faithful.** Same edit model; induction over histories.
* **C60 An edit does exactly what it is asked to.** Inductive relations for the three list edits; equivalence with the functions.
* **C61 Each metric type accepts the documented aggregation types.** Case analysis over the code table.
* **C62 Legacy stored rules keep their meaning.** Model the legacy loop (map of policies as a list, then deduplicated and sorted); equivalence with a declarative reading.
* **C63 What passes validation can be read back.** Validator model composed with the storage model; refutation by witness; positive theorem by induction over validated edits.
* **C64 The matcher serves matches against the latest rules.** The cache projection of a matcher run is a cache run, so C43 gives a source answer not cleared since; the trace invariant of C47 shows the rules cannot have changed since without the cache being cleared.
* **C65 Stored rule sets and namespaces survive their byte format.** Same field patterns as C48 plus packed enums, string lists and lists of pointers (`RuleWire`); the round trip by composition of per-field lemmas, then with C36 and C39; safety by induction over the input; nil elements as a predicate over the message, not over the check.
* **C66 Messages of newer writers are understood.** The wire format as relations independent of the code (varints, values by wire type, fields, the .proto files as schemas, and when one message is a newer or reordered form of another); every field pattern reads its value without looking further and touches one component of the message (a lens), so fields of different numbers commute and unknown ones do nothing; induction over the derivation, message types bottom-up.
* **C67 Written rules reach the metrics.** A system of the store and the matcher in which deliveries carry any present or past value of the store; an invariant ties every processed rule set to a state of the store; C64 gives the match against the trimmed rules, C24 and the expiry extend it to the complete rules, C36/C40 connect it to what was written, C29 to the stage in effect; catching up by C47.
* **C68 Rule sets and changes survive being sent as JSON.** JSON values and the readers and writers of every type, encoding/json's conventions (missing and null fields, case of keys, nil slices, invalid UTF-8) included; round trips composed from the parts up; validity of what is read by inversion; a relation between a document and one with more fields in another order, under which every reader gives equal results. The UTF-8 part is specified by the encoding of code points.
* **C69 Comparing and sorting views and changes.** Equivalence of the comparisons with a relation on views; sorting against the contract of sort.Sort for strict weak orders.
* **C70 The namespace validator follows its key and closes cleanly.** A small-step machine with an explicit lock: key writers, the goroutine, any number of calls of Close and Validate. One inductive invariant gives the answers, the freshness at rest and the single close; a measure that every own step decreases gives termination; the shape of states without own steps gives the absence of deadlock.
* **C71 What the rules decide reaches the aggregator.** A typing invariant of the generated readers (every field read keeps the message a value of its Go type without nil elements), carried through the rules' constructors and the matcher to the match results, and through the system of C67 to everything a matcher serves; then the stream theorem of C48.
* **C72 The msgpack readers accept nothing but the format.** The converse of C52. A predicate on decoders (if it ends without error it began without one and consumed a form of its result) with one lemma per combinator and one per schema object, lifted to the two loops; unambiguity follows from determinism of the reader together with C52. The format in the specification is therefore complete: it lists every form that is accepted (nil for 0, for no bytes and for an empty list; eight-byte unsigned numbers for the signed ones with the same bits; units of precision cut to eight bits).
* **C73 Protobuf messages mean what the protobuf guide says.** The specification gives the wire format as inductive relations (tags, values by shape, unknown values with nested groups) and each .proto message as a table of shapes together with equations for its members. The generated decoders are field tables over one loop; each kind of field is proved to accept exactly the values of its shape and to update its member by them; a sequence of fields is then an iteration of these updates, from which the equations are computed. C66 and C65 give the round trips; this gives the meaning of all other bytes.
* **C74 The protobuf iterator yields exactly what the stream says.** An inductive relation gives the reading of a stream of frames, on top of the meaning of messages of C73 and a relation for which metric a message is. One step of the iterator is shown to match the relation, using that the conversion functions compute the relation whatever their target held before; induction over the iteration gives both directions. C50 gives that the iteration ends.
* **C75 Staged policies survive JSON.** JSON values as in C68; the round trip is that of the policy text (C07) under lists and structs. What a document yields is traced back to the parsers. For the last part, the text printed for an ID that does not decompress starts, after the bar, with a bracket, which no type name does.
* **C76 What is written means what was written.** The encodings of Model/ProtoWire and Model/RuleWire are shown to be encodings in the sense of WireMeaningSpec, field by field: what is written for a field is a list of fields whose effect on the empty message is to set the member. The fields of a message are then put together, and embedded messages by induction on their nesting, which is fixed. The stream is built frame by frame; that it has one reading only is C74's last theorem, proved from the meaning alone by induction on the derivation. The sent metrics come from C48.
* **C77 Rule sets, views and active sets do not disturb each other.** Base/Mem is a small memory: objects of cells, pointers, slices with offset, length and capacity, and append in place when there is room, with an arbitrary growth policy. Model/RuleMem writes the functions of rules/ again over it. Spec/RuleMemSpec says what plain value a Go value stands for and runs every action twice, in memory and on plain values (Model/RuleSet). The invariant gives every rule set a set of objects that it alone may change (its header, rules, and arrays, the latter with the length in use) and a set it only reads, every view and active set what it reads, and says who may overlap; active sets may read a prefix of an array that the rule set appends to. Each action preserves it (frame lemmas), by induction over the actions. Two examples prove that the exceptions are real.
* **C78 Closed iterators yield nothing, and can be used again after a reset.** Next and Close of the four iterators are the functions of C48, C51 and C54; for every state, by computation, and the reset theorems from C51.
* **C79 Exactly the meaningful stored rule sets are accepted, and mean what they say.** Spec/StoredSpec says, message by message and as relations, what rule set a message stands for; it does not follow the order of the checks in the code. Equivalence with the reader of C36 and C62 by composition over the parts of the message, and with the bytes through C73.
* **C80 A configuration of aggregation types means what it says.** Model/AggConfig follows NewOptions setter by setter; a document is the strings under its keys (the yaml library is trusted to deliver them). Spec/AggConfigSpec has the tables of names, defaults, suffixes and transformations. The options are shown to be those of a sequence of setters, so that the results behind C04 and C05 apply. The 14 quantiles are recomputed in float64 (SpecFloat); that FormatFloat prints the shortest decimal is trusted.
* **C81 Matching changes nothing, and a match result is its caller's own.** Model/MatchMem writes ForwardMatch and ReverseMatch again over the memory of Base/Mem: slices of pipelines, storage policies and stages, appends with an arbitrary growth policy, the in-place shift of unique, copies of pipelines, and the two package variables. Spec/MatchMemSpec says what tree a Go value stands for (with the list of what is looked at), that no existing cell changed, and that a result reads only new memory and the package variables. Each function is shown to compute the tree of what Model/Rules computes, to write only to slices it owns (addresses not below those at the start of the match), and to hand over what it owns; induction over the rules, the cutover times and the history of matches. An example proves that the in-place ApplyOrRemoveDropPolicies changes the result it is applied to. Simplified: cutover times and the intermediate lists of rollup results are lists (they do not leave the function); insertion sort in place of sort.Sort; clones made only to compare are left out.
* **C82 Editing and matching do not disturb each other.** Spec/ServeMemSpec joins the worlds of C77 and the matches of C81: a match against an active set that the world holds adds a result, and a holder may write anywhere into its result except into the package variables. The invariant of C77 is framed: an action writes only to memory that rule sets, views and active sets use, and what they use afterwards was in use or is new (Proof/ServeMemProof, by cases on the actions); results and package variables stay outside of it (Proof/ServeMemLives). C82_frozen follows because the entry of an active set without waiting rules is never disturbed.
* **C83 What a msgpack iterator shows stays put until it decodes again.** Model/IterMem repeats the iterator of Model/Msgpack with slices, capacities, append and the pool of float slices; a growth function and the choice of the pool are arbitrary. Spec/IterMemSpec says what is seen through slices and what may happen in a world of iterators. Proof/IterMemNext shows function by function that what is seen is what the model without memory computes, and that only memory of the iterator's own is written (relation grows); Proof/IterMemWorld keeps the invariant that no two iterators, batches or pooled slices own the same array; Proof/IterMemKept frames what is shown. C83_stream joins this with C51.
* **C84 The tests for default and dropped metadata are exact.** Case analysis on the lists and fields (Props/DefaultProps).
* **C85 Edits take effect when the propagation delay has passed.** From the exact description of edits (C60), their stamps (C33) and what is in effect at a time (Spec/DelaySpec); the session by induction over the requests (Props/DelayProps).
* **C86 No call into the matcher or its cache blocks for ever.** Calls as sequences of operations on locks, channels and the wait group, with everything they may find as parameters (Model/Locks); goroutines interleave in steps, with Go's rule that an announced writer keeps new readers out. Every call takes locks in the order namespaces value, namespaces, rule set value, cache, rule set, list (an inductive discipline that composes over blocks); so whoever waits for a lock waits for a holder that waits for a higher one, and nobody waits when nothing can step. Runs end by a lexicographic measure: signals first, then remaining operations (Proof/LocksProof). The lock of a runtime value of m3cluster is assumed to be held by Watch, Unwatch and the processing of updates. What is not covered: fairness, that is, a call may be overtaken for as long as new calls keep coming.
* **C87 The matcher and its cache can be used from any number of goroutines without data races.** The model of C86 with the accesses of the calls to what they share: the cache's fields, its list, its maps of elements, and the fields of the namespaces and rule sets. The discipline that orders the locks also says that each location is accessed with its lock, and that the variable for a namespace's map is used only between looking the map up and giving up the cache's lock. An invariant over all executions says that maps taken for deletion belong to no namespace (Proof/LocksProof). Not covered: metrics, the elements' promotion times (atomic in the code), what is set by constructors only, and m3cluster's own data. Whether results handed out share memory that is written later is C82.
* **C88 Users of pooled msgpack encoders do not see each other's data.** Encoders as an array, a length and a closed flag in a memory of arrays; the pool as the list of what it keeps, with every choice of what Get hands out and what Put drops as a parameter (Model/EncPool). The users' books of what they have and wrote are a separate specification. An invariant over all histories says that encoders have arrays of their own, that what the pool keeps is nobody's, and that the books agree with the memory (Proof/EncPoolProof). Observations: Get does not reset, so an encoder that is not reset shows its last user's bytes and its Close does nothing (C88_get_does_not_reset); a late second Close, or Close after Put, makes two users share an encoder (C88_late_close, C88_give_and_close). bytes.Buffer is assumed to be written and truncated only, and operations on one pool to be atomic.
* **C89 Protobuf iterators, encoders and buffers that share a pool do not disturb each other.** Iterators with the buffer they take from the pool are added to the memory, encoders and relinquished buffers of C48 and C49; Next is two steps, so that others run between reading into the buffer and unmarshalling from it (Model/ProtoPool). The specification is the iterator over a private stream of C48. The buffer of an iterator is shown to be one more relinquished buffer of the system of C49, so that the invariant of C49 carries over, and a message that is being read stays in the buffer until it is unmarshalled (Proof/ProtoPoolProof). An unmarshalled message is a value: the generated code copies byte fields. What Current shows after a later Next is not covered.
* **C90 Tag look-ups and filters in any number of goroutines do not disturb each other through the pool of tag iterators.** Iterators with their index and error flag as in the code, in a memory; the pool as the list of what it keeps, with its choices as parameters; the four users of iterators in the code and a user of the interface as state machines, one method call per step, interleaved by any schedule (Model/TagPool). The specification is the functions of MetricID, Filter and Rules that work on the list of all tags. An invariant says that every call has an iterator of its own and that what the call is going to return, from its variables and what its iterator has still to give, is what it returns alone; a measure bounds the steps (Proof/TagPoolProof). Observation: Close does not look whether the iterator is closed, so that closing twice gives one iterator to two calls, and one reads the tags of the other (C90_closed_twice); no code here closes twice. Not covered: the filters of values inside (values without state).
* **C91 Pipelines and policies in YAML configuration mean what they mean in JSON.** YAML documents as trees of scalars, sequences and mappings; the UnmarshalYAML methods as readers on trees (Model/Yaml), next to the JSON readers of C68. A relation between JSON and YAML documents; induction over it shows that the readers agree, one lemma per reader. yaml.v2 is modelled from its documentation: no UnmarshalYAML is called for null, which is why a null element of a pipeline is taken for an operation of no kind (C91_null_element); what null makes of a string is a parameter.
* **C92 The rule store and the matcher behave the same on bytes as on messages.** The store and the system of C67 once more, with a key-value store of bytes (Model/ByteStore): commits marshal, readers and the matcher's watches unmarshal as the type they expect. The specification says when a store of bytes stands for a store of messages: same keys and versions, and bytes that mean the messages to those who read the key. A simulation: writes, reads and steps of the matcher keep this relation and report the same, by the round trips of C65; the theorems of C40 and C67 then carry over.

## Trusted base

* Coq 8.16.1's kernel (and `vm_compute`, used in the concrete examples and a few finite case analyses).
* `Print Assumptions` follows every theorem in `Props/`; each reports "Closed under the global context": no
  axiom, neither ours nor the standard library's, is used. (The library modules loaded transitively declare the
  seven `Coq.ssr.ssrunder.Under_rel.*` constants of the standard library; no theorem depends on them.)
* Only the standard library is imported.
* The transcription from Go to Gallina, which the comments make checkable definition by definition.

### What is modelled

| Go | model |
|---|---|
| `aggregation` (types, compressed IDs, type options) | `AggType` |
| `aggregation/type_config.go` | `AggConfig` |
| `policy`, `pipeline`, `pipeline/applied`, `transformation`, `metadata` | `Policy`, `Pipeline`, `Transformation`, `Metadata` |
| `filters` | `Filter` |
| `metric/id`, `metric/id/m3` | `MetricID` |
| `metric/unaggregated`, `metric/aggregated`, generated `metricpb`, `encoding/protobuf` | `Messages`, `ProtoWire`, `ProtoStream` |
| `encoding/msgpack` and what it uses of `msgpack.v2` | `Msgpack`, `MsgpackLib` |
| the unaggregated msgpack iterator with its buffers and the pool of float slices | `IterMem` |
| `encoding/migration` | `LegacyConvert`, `Migration` |
| `rules`: matching; editing; protobuf conversion; namespaces | `Rules`; `RuleSet`; `RuleSetProto`; `Namespace` |
| `rules`: rule sets, clones, views and active sets as pointers and slices in memory | `Base/Mem`; `RuleMem` |
| `rules`: matching as pointers and slices in memory | `Base/Mem`; `MatchMem` |
| generated `rulepb`, `pipelinepb`, `policypb` (bytes) | `RuleWire`, `ProtoWire` |
| `rules/store/kv`, `rules/validator` | `Store`, `Validator` |
| `matcher/cache` and its list, the generated hash maps, `matcher` | `Cache`, `CacheList`, `HashMap`, `Matcher` |
| the locks, channels and goroutines of `matcher/cache` and `matcher` | `Locks` |
| `encoding/msgpack/buffered_encoder.go`, `buffered_encoder_pool.go` with their memory | `EncPool` |
| `encoding/protobuf/unaggregated_iterator.go` with its pooled buffer | `ProtoPool` |
| tag iterators of `metric/id/m3/id.go` with their pool, `metric/id/tag.go`, and what uses them | `TagPool` |
| store and matcher together (`matcher/config.go`) | `System`; with the stored bytes: `ByteStore` |
| JSON of views, changes and namespaces (`rules/view`, `rules/view/changes`, `MarshalJSON`/`UnmarshalJSON` of aggregations, policies, staged policies, transformations, pipelines) | `Json`, `PolicyJson` |
| YAML of types, policies and pipelines (`UnmarshalYAML` in `aggregation`, `policy`, `transformation`, `pipeline`, `metric`) | `Yaml` |
| comparisons and sorts of views and changes | `View` |
| `rules/validator/namespace/kv`, `.../static` | `NsValidator` |

Not modelled: mocks, metrics reporting, option structs without logic, YAML configuration structs (except `type_config.go`, the `UnmarshalYAML` methods of `Yaml` and the parsing of
filters), object pools (except the bytes pool of the protobuf encoder and the floats pool of the msgpack iterator, the pool of buffered encoders and the pool of tag iterators), `String`
methods used for logging only, the watch machinery of m3cluster (`runtime.Value`: an update is delivered as an action of the
matcher's state machine; in `System` it carries any present or past value of the key), memory consumption, stack depth, and data races beyond the locks the models carry.

### External behaviour that is assumed

* `bitset.NextSet` finds the first set bit at or after an index.
* `xtime.Unit` is the table of m3x; printing and parsing durations satisfy the laws of the record `duration_text`
  (hypothesis of the theorems that use them).
* `sort.Sort` returns a sorted permutation. Theorems either quantify over any such function or sort by a total
  order; otherwise the model uses insertion sort.
* `strings.TrimSpace`, ranging over the runes of a string and the comparison of JSON keys are modelled on bytes for all of Unicode (`Base/Bytes`, `Base/Utf8`, `Model/Json`), as package documentation says, not from their source.
* Tag iterators deliver a list of pairs and an error flag; the function computing rollup IDs is arbitrary.
* `gopkg.in/yaml.v2` reads documents as `Model/Yaml` says: keys are matched exactly, a scalar is given to a string as its text, no
  `UnmarshalYAML` is called for null.
* `kv.TxnStore`: a commit is atomic, a key never set has version 0, each set adds 1 to the version, keys are not
  deleted.
* Fresh UUIDs are arguments of the edits; uniqueness is a hypothesis where it matters.
* The two mutexes of the cache exclude as documented; channel sends of the cache are atomic; `time.Now` and
  `rand.Int63n` are inputs; in the cache model the generated hash maps are ideal (see C46 for the maps themselves).
* Byte slices are values: no aliasing between slices, except where the model carries it (`RuleMem` for rule sets, `MatchMem` for matching, `IterMem` for msgpack iterators; reused slices of
  protobuf messages).
* `pool.BytesPool.Get(n)` returns a new array of at least `n` bytes with any content, or one that was given back and
  is long enough; nobody keeps using an array after giving it back.
* `binary.ReadVarint` and `io.ReadFull` behave as in Go 1.9/1.10 (a stream that ends inside a varint is `io.EOF`);
  `math.Max` of two sizes below 2^53 is exact.
* The messages a protobuf iterator returns are read before its next `Next` (their IDs and values alias its buffers); for the
  unaggregated msgpack iterator this is part of the model (C83).
* `msgpack.v2` writes integers, lengths and strings in their shortest form and reads every form of the format
  (`MsgpackLib` spells this out; `DecodeFloat64` accepts float64 only); `DecodeBytes` returns a slice of its own; writing to a
  `bytes.Buffer` does not fail; a reader that is an `io.ByteScanner` is read without buffering; the pool of float slices
  hands out empty slices, new ones or ones that were given back, and who gives one back does not use it any more.
* `kv.Store.Watch` notifies at once if the key has a value and after every change; `Get` returns the present value; a `select` with two ready cases takes either; `RWMutex` excludes writers; `kvutil.StringArrayFromValue` returns the default for a missing value and an error for an unreadable one.
* `encoding/json` writes a JSON value as text that it parses back to the same value; missing and null fields leave the zero value; unknown keys
  are skipped; keys match up to ASCII case, with the Kelvin sign for k and the long s for s (`C68_keys`); of a repeated key the last counts; invalid
  UTF-8 is written as U+FFFD. Printed storage policies are quoted by `strconv` to text that JSON reads alike (they are printable).
* A compiled filter is present on every snapshot that is matched (`nil` filters match nothing in the model; the Go
  code would panic. Rule sets read from the store always have them).

### Findings

Statements of the list that are false of the code are proved false (`..._refuted`) and then proved with the
missing condition (`..._partial`), or the condition is part of the property. Beyond these:

* timers accept undefined aggregation type codes;
* the msgpack readers take nil for the number 0, for an empty ID and for an empty list, cut a unit of precision to its
  lowest eight bits (257 is read as a second), and do not look at what follows the value in a raw metric
  (`C72_nonvacuous`, `C72_metric`);
* the protobuf readers accept a packed list whose announced length passes 2^63-1 when added to the position, as an empty
  list (`C73_overflow_accepted`), and read on to the end of an element that begins inside the announced length and ends
  outside it; the end tag of a group need not have the number of the start tag (`packed`, `passed` in `WireMeaningSpec`);
* the store panics when a validator is set and a nil rule set is written;
* batches of edits are not atomic, and a change without data is a nil pointer panic;
* versions and drop policies are truncated to 32 bits when stored;
* aggregation types of a mapping rule with a drop policy are lost when stored;
* a live rollup rule without targets can be written, even past the validator, but then the whole rule set cannot be
  read;
* an update can rename a rule onto the name of another rule.
* the cache's list loses elements when an element that was never pushed is moved (the cache never does);
* evicting an element orphaned by a refresh also forgets the newer entry of the same metric
  (`C45_orphan_hides_newer`);
* a cached result is served for any window whose end is before its expiry, even one that starts earlier than the
  window it was computed for.

* sorting changes can make them inapplicable: an addition that reuses the name of a deleted rule then comes first
  (`C69_sorting_matters`); with a change lacking its rule, `Less` is no ordering (`C69_not_ordered`);
* names that are not UTF-8 are altered by JSON (`C68_not_text`); JSON changes may carry drop policies that do not exist
  (`C68_refused`), and drop policies are numbers in JSON but names in YAML;
* of overlapping calls of the namespace validator's `Close` only the first waits for the goroutine; another may return while it
  still runs (`C70_second_close_returns_early`); `Close` waits as long as writes to the key keep winning the `select`;
* the protobuf decoder panics on a negative size prefix and on embedded lengths close to 2^63 (C50); nested groups
  recurse without bound (not modelled: the model has no stack);
* a stream cut right after a size prefix looks like a complete stream (`C48_cut_can_look_clean`);
* minus zero is sent as zero;
* cutting a relinquished buffer to more than its length, within its capacity, exposes old bytes;
* closing two copies of a relinquished buffer gives its array to the pool twice (copies are not modelled).
* a msgpack metric sent without policies is shown with the policies of an earlier message, and the migration iterator
  attaches their metadatas to it (`C53_msgpack_refuted`, `C54_nonvacuous`);
* a msgpack stream cut between messages, or inside one, may end with the same error as a whole one
  (`C51_cut_can_look_clean`);
* the msgpack encoder truncates lengths of 2^32 and more, and writes invalid precisions that no decoder accepts;
* a lazily decoded metric whose data are damaged after the ID answers `ID()` with an error once another field was read
  (`C55_damaged`);
* in a mixed stream, messages of a newer msgpack version are taken for protobuf (even version) or make the next message be
  read as msgpack whatever it is (odd version) (`C54_newer_versions_misread`).
* a negative aggregation type in a stored list is written as one byte although ten are announced, so that the rule set
  cannot be read (`C65_negative_code`); a nil element of a list makes writing panic (`C65_nil_element`).
* a rule set keeps the slices of a view that is passed to it: writing to the view afterwards changes the rule set
  (`C77_given_view_is_shared`).
* `ApplyOrRemoveDropPolicies` works in place: applied to the stages of a match result that is still held (a cached one, say), it
  changes that result (`C81_apply_drop_writes`).
* an active set taken when all snapshots of a rule are in the future has the rule itself, so that a later edit of the rule
  set, which may add a snapshot without a filter, shows in the active set (`C77_waiting_active_is_shared`).
* a null element of a pipeline in YAML is taken for an operation of no kind, where JSON refuses it (`C91_null_element`).

Observed while modelling, visible in the model but not stated as theorems: `NameAndTags` only asks that the text before the
first `+` ends with the prefix (`xm3+name+tags` is accepted); a tags filter with a conjunction is false when an ID has a
malformed trailing tag; `addSnapshot` does not check that cutovers increase, and trimming an unordered history can lose a
change; `Type.Proto` accepts the unknown type 0; `perSecond` divides floats without looking for overflow; the default drop
metadatas are one shared global; an expiry equal to the end of the window means immediate expiry; the lookup of a mapping
rule by name skips rules without snapshots where the lookup of a rollup rule fails; a packed list of doubles whose length is
not a multiple of 8 is read past its end; lengths in msgpack input cause allocations of that size (memory is not modelled).
