{"id": "C01", "title": "Filter matching is exact bitwise comparison", "statement": "A filter built from a string over {0,1,x} at a bit offset matches an identifier exactly when, at every non-x position i of the string, bit offset+i of the identifier equals the character; bits outside the string never influence the answer.", "quantifier": "every filter string over {0,1,x} of any length, every offset, every identifier that covers the filter's bytes", "why_tests_cant": "filters straddle byte boundaries at any of 8 alignments and any length; tests sample a handful of literals", "anchors": ["filtering/filter_object.go:NewFilter", "filtering/filter_object.go:makeFilter", "filtering/filter_object.go:Match"]}
{"id": "C02", "title": "Matching a too-short identifier panics exactly when the identifier is exhausted", "statement": "Matching never fails by panic unless the identifier ends before the filter's last byte and all its available bits agree with the filter; in that case it always panics.", "quantifier": "every filter string, offset and identifier of any length, including empty", "why_tests_cant": "the set of (filter, short identifier) pairs is infinite and tests only use identifiers that are long enough", "anchors": ["filtering/filter_object.go:Match"]}
{"id": "C03", "title": "Transparent filters are exactly those that match everything", "statement": "IsTransparent answers true exactly when the filter matches every identifier long enough to be tested.", "quantifier": "every filter string over {0,1,x} and every offset", "why_tests_cant": "the right-hand side quantifies over all identifiers", "anchors": ["filtering/filter_object.go:IsTransparent"]}
{"id": "C04", "title": "Byte views of a filter are consistent", "statement": "HasByteAt(b) holds exactly when the filter constrains or pads byte b, GetByteAt(b) succeeds exactly then, and the pair of bytes it returns decides that byte of the match.", "quantifier": "every filter, every byte index", "why_tests_cant": "index arithmetic at both edges must be right for all offsets and sizes", "anchors": ["filtering/filter_object.go:GetByteAt", "filtering/filter_object.go:HasByteAt"]}
{"id": "C05", "title": "Longest common prefix", "statement": "The common-prefix helper returns a string that is a prefix of every input and that has every other common prefix as a prefix; for no input it returns the empty string.", "quantifier": "every finite list of byte strings", "why_tests_cant": "correctness relies on the lexicographic min/max argument, which needs a proof", "anchors": ["filtering/engine.go:lcp"]}
{"id": "C06", "title": "Bit addressing of identifiers", "statement": "Asking for the bit at offset n of an identifier returns that bit (most significant bit first), the end marker exactly at the end, and an error exactly beyond the end.", "quantifier": "every identifier and offset", "why_tests_cant": "unbounded input", "anchors": ["filtering/engine.go:getNextBit"]}
{"id": "C07", "title": "List engine reports exactly the matching subscriptions", "statement": "Search on a List engine reports, in list order and once per stored subscription, exactly the report URIs of the subscriptions whose filter matches the identifier; with no match it returns an error and no URI; otherwise the pure identity is that of the tag.", "quantifier": "every set of subscriptions, every read event", "why_tests_cant": "soundness and completeness over all subscription sets and tags", "anchors": ["filtering/list.go:Search", "filtering/list.go:NewList"]}
{"id": "C08", "title": "List engine updates behave like a set", "statement": "After any sequence of AddSubscription and DeleteSubscription calls a List engine holds each (filter, URI) pair at most once, adding is idempotent, deleting removes exactly the given pair and nothing else, and deleting an absent pair changes nothing.", "quantifier": "every initial subscription set and every finite history of add/delete calls", "why_tests_cant": "histories are unbounded", "anchors": ["filtering/list.go:AddSubscription", "filtering/list.go:DeleteSubscription", "filtering/list.go:IndexOf"]}
{"id": "C09", "title": "Patricia trie search reports exactly the matching subscriptions", "statement": "Search on a freshly built PatriciaTrie engine reports exactly the URIs of the subscriptions whose binary prefix matches the tag.", "quantifier": "every finite set of binary prefix subscriptions and every tag identifier", "why_tests_cant": "tree shape depends on the whole key set", "anchors": ["filtering/patricia_trie.go:NewPatriciaTrie", "filtering/patricia_trie.go:build", "filtering/patricia_trie.go:search"]}
{"id": "C10", "title": "Patricia trie add", "statement": "Adding a subscription to a PatriciaTrie makes exactly that subscription additionally reported and disturbs no other one.", "quantifier": "every reachable trie, every new prefix and URI, every tag", "why_tests_cant": "the restructuring cases (split, extend, prefix-of-existing) are path dependent", "anchors": ["filtering/patricia_trie.go:AddSubscription", "filtering/patricia_trie.go:add"]}
{"id": "C11", "title": "Patricia trie delete", "statement": "Deleting a subscription from a PatriciaTrie removes exactly that subscription: it is never reported again and every other subscription is still reported.", "quantifier": "every reachable trie, every prefix, every tag", "why_tests_cant": "merging of nodes on delete is path dependent", "anchors": ["filtering/patricia_trie.go:DeleteSubscription", "filtering/patricia_trie.go:delete"]}
{"id": "C12", "title": "Splay tree first search is exact", "statement": "The first Search on a freshly built SplayTree engine reports exactly the URIs of the subscriptions whose binary prefix matches the tag.", "quantifier": "every finite set of binary prefix subscriptions and every tag identifier", "why_tests_cant": "nesting of subsets depends on the whole key set", "anchors": ["filtering/splay_tree.go:NewSplayTree", "filtering/splay_tree.go:build", "filtering/splay_tree.go:splaySearch", "filtering/subscriptions.go:linkSubset"]}
{"id": "C13", "title": "Splay tree answers do not depend on search history", "statement": "Whatever tags were searched before, a SplayTree engine reports for a tag the same subscriptions as on the first search.", "quantifier": "every subscription set and every finite history of searches", "why_tests_cant": "histories are unbounded and each search mutates the tree", "anchors": ["filtering/splay_tree.go:splaySearch"]}
{"id": "C14", "title": "Splay tree add", "statement": "Adding a subscription to a SplayTree makes exactly that subscription additionally reported and disturbs no other one.", "quantifier": "every freshly built tree, every new prefix and URI, every tag", "why_tests_cant": "depends on the position of the new prefix relative to all existing ones", "anchors": ["filtering/splay_tree.go:AddSubscription", "filtering/splay_tree.go:add"]}
{"id": "C15", "title": "Splay tree delete", "statement": "Deleting a subscription from a SplayTree removes exactly that subscription.", "quantifier": "every freshly built tree, every prefix, every tag", "why_tests_cant": "case analysis over tree shapes", "anchors": ["filtering/splay_tree.go:DeleteSubscription", "filtering/splay_tree.go:delete"]}
{"id": "C16", "title": "All binary engines agree", "statement": "For the same subscriptions, List, PatriciaTrie and SplayTree report the same URIs in the same order for the same tag, so switching engines at run time is invisible.", "quantifier": "every subscription set and every tag", "why_tests_cant": "the product of engines, subscription sets and tags is infinite", "anchors": ["filtering/engine.go:AvailableEngines", "filtering/engine_factory.go:Search"]}
{"id": "C17", "title": "Legacy engine search", "statement": "LegacyEngine Search reports each report URI once per pattern of that URI whose fields (without the filter value) are a textual prefix of the tag's pure identity, whatever the map iteration order; it returns an error exactly when translation fails or nothing matches.", "quantifier": "every subscription map, every iteration order, every read event", "why_tests_cant": "map iteration order is randomised at run time", "anchors": ["filtering/legacy_engine.go:Search"]}
{"id": "C18", "title": "Legacy engine agrees with the binary engines", "statement": "For the same subscriptions the LegacyEngine reports the same set of URIs as the binary engines.", "quantifier": "every subscription set and every tag", "why_tests_cant": "infinite product", "anchors": ["filtering/legacy_engine.go:Search", "filtering/list.go:Search"]}
{"id": "C19", "title": "Legacy engine add", "statement": "AddSubscription on a LegacyEngine adds every (URI, pattern) pair not yet present, keeps all existing pairs, and never stores a pair twice.", "quantifier": "every stored map and every argument map", "why_tests_cant": "duplicates can come from the argument as well as from the stored slice", "anchors": ["filtering/legacy_engine.go:AddSubscription"]}
{"id": "C20", "title": "Legacy engine delete", "statement": "DeleteSubscription on a LegacyEngine removes exactly the given (URI, pattern) pairs.", "quantifier": "every stored map and every argument map", "why_tests_cant": "slice aliasing makes the result depend on the order and number of deletions", "anchors": ["filtering/legacy_engine.go:DeleteSubscription"]}
{"id": "C21", "title": "List engine save/restore", "statement": "Serialising a List engine and deserialising the bytes yields an engine with the same subscriptions in the same order, and data of another engine type is rejected.", "quantifier": "every list of subscriptions", "why_tests_cant": "unbounded list", "anchors": ["filtering/list.go:MarshalBinary", "filtering/list.go:UnmarshalBinary"]}
{"id": "C22", "title": "Patricia trie save/restore", "statement": "Serialising a PatriciaTrie and deserialising the bytes yields the same trie.", "quantifier": "every trie", "why_tests_cant": "every tree shape", "anchors": ["filtering/patricia_trie.go:MarshalBinary", "filtering/patricia_trie.go:UnmarshalBinary"]}
{"id": "C23", "title": "Splay tree save/restore", "statement": "Serialising a SplayTree and deserialising the bytes yields the same tree.", "quantifier": "every tree", "why_tests_cant": "every tree shape", "anchors": ["filtering/splay_tree.go:MarshalBinary", "filtering/splay_tree.go:UnmarshalBinary"]}
{"id": "C24", "title": "Legacy engine save/restore", "statement": "Serialising a LegacyEngine and deserialising the bytes yields an engine with the same subscriptions.", "quantifier": "every stored map", "why_tests_cant": "loop bounds come from the data", "anchors": ["filtering/legacy_engine.go:MarshalBinary", "filtering/legacy_engine.go:UnmarshalBinary"]}
{"id": "C25", "title": "Subscriptions save/restore and clone", "statement": "Serialising Subscriptions and deserialising them, or cloning them, yields the same map from URI to pattern list; the clone does not share storage with the original.", "quantifier": "every subscription map and every iteration order", "why_tests_cant": "unbounded nested data, nondeterministic map order", "anchors": ["filtering/subscriptions.go:MarshalBinary", "filtering/subscriptions.go:UnmarshalBinary", "filtering/subscriptions.go:Clone", "filtering/subscriptions.go:Keys"]}
{"id": "C26", "title": "Keys are the sorted key set", "statement": "Keys returns every key exactly once in ascending byte order, independently of the map iteration order.", "quantifier": "every map and every iteration order", "why_tests_cant": "iteration order is randomised", "anchors": ["filtering/subscriptions.go:Keys"]}
{"id": "C27", "title": "Conversion to binary subscriptions keeps every subscription", "statement": "Converting text subscriptions to binary prefix subscriptions keeps every (pattern, URI) pair and does not depend on map iteration order.", "quantifier": "every subscription map and every iteration order", "why_tests_cant": "iteration order is randomised and collisions depend on the whole map", "anchors": ["filtering/subscriptions.go:ToByteSubscriptions"]}
{"id": "C28", "title": "Invalid patterns subscribe to nothing", "statement": "A pattern that cannot be turned into a binary prefix filter is ignored and never causes a tag to be reported.", "quantifier": "every pattern string rejected by the prefix filter construction", "why_tests_cant": "the set of malformed patterns is infinite", "anchors": ["filtering/subscriptions.go:ToByteSubscriptions", "tdt/core.go:MakePrefixFilterString"]}
{"id": "C29", "title": "Subset nesting preserves subscriptions", "statement": "Nesting of prefix subscriptions keeps every subscription exactly once at its full prefix with the right URI, gives each nested entry the bit offset at which its remainder starts, and leaves no entry next to one that is its prefix.", "quantifier": "every finite set of prefix subscriptions", "why_tests_cant": "recursion over an arbitrary prefix order, with deletion from the map being iterated", "anchors": ["filtering/subscriptions.go:linkSubset"]}
{"id": "C30", "title": "CSV loading keeps exactly the well-formed rows", "statement": "Loading subscriptions from CSV yields, for each lower-cased URI starting with http, the concatenation in file order of the fields of its rows that start (case-insensitively) with urn:epc:pat:, and nothing else.", "quantifier": "every list of CSV records", "why_tests_cant": "unbounded file contents", "anchors": ["filtering/subscriptions.go:LoadSubscriptionsFromCSVFile"]}
{"id": "C31", "title": "Composite filter never rejects a tag one of its members accepts", "statement": "The composite filter of several filters accepts every identifier accepted by at least one member.", "quantifier": "every list of filters with overlapping byte ranges and every identifier", "why_tests_cant": "bit-level disjunction over arbitrary alignments", "anchors": ["filtering/composition.go:NewComposition"]}
{"id": "C32", "title": "Composite filter plus child filter equals the original filter", "statement": "An identifier matches an original filter exactly when it matches the composite filter and the child filter kept for it.", "quantifier": "every list of filters, every identifier", "why_tests_cant": "bit-level reasoning over arbitrary alignments", "anchors": ["filtering/composition.go:NewComposition", "filtering/composition.go:processWildcard"]}
{"id": "C33", "title": "Grouping of sequential integers", "statement": "Grouping a list of integers yields groups whose concatenation is the list, each group consecutive, and no two neighbouring groups mergeable.", "quantifier": "every list of integers", "why_tests_cant": "unbounded input", "anchors": ["filtering/composition.go:groupSequentialSlice"]}
{"id": "C34", "title": "SGTIN-96 decoding", "statement": "Translating a 96-bit tag with the SGTIN header yields the URN whose company prefix, item reference and serial are the GS1 bit fields for its partition, zero padded to the GS1 digit counts.", "quantifier": "all PC words with the EPC toggle bit and all 12-byte identifiers with header 0x30, a partition value from the GS1 table and field values within the GS1 digit counts (what happens on the other identifiers is C38 and C39)", "why_tests_cant": "2^88 identifiers", "anchors": ["tdt/core.go:Translate", "tdt/core.go:buildEPC", "tdt/epc.go:SGTIN96PartitionTable"]}
{"id": "C35", "title": "SSCC-96 decoding", "statement": "Translating a 96-bit tag with the SSCC header yields the URN whose company prefix and serial reference are the GS1 bit fields for its partition, zero padded to the GS1 digit counts.", "quantifier": "all PC words with the EPC toggle bit and all 12-byte identifiers with header 0x31, a partition value from the GS1 table and field values within the GS1 digit counts (what happens on the other identifiers is C38 and C39)", "why_tests_cant": "2^88 identifiers", "anchors": ["tdt/core.go:Translate", "tdt/core.go:buildEPC", "tdt/epc.go:SSCC96PartitionTable"]}
{"id": "C36", "title": "GRAI-96 decoding", "statement": "Translating a 96-bit tag with the GRAI header yields the URN whose company prefix, asset type and serial are the GS1 bit fields for its partition, zero padded to the GS1 digit counts; with a twelve-digit company prefix there is no asset type and the URN is company prefix and serial.", "quantifier": "all PC words with the EPC toggle bit and all 12-byte identifiers with header 0x33, a partition value from the GS1 table and field values within the GS1 digit counts (what happens on the other identifiers is C38 and C39)", "why_tests_cant": "2^88 identifiers", "anchors": ["tdt/core.go:Translate", "tdt/core.go:buildEPC", "tdt/epc.go:GRAI96PartitionTable"]}
{"id": "C37", "title": "GIAI-96 decoding", "statement": "Translating a 96-bit tag with the GIAI header yields the URN whose company prefix and individual asset reference are the GS1 bit fields for its partition.", "quantifier": "all PC words with the EPC toggle bit and all 12-byte identifiers with header 0x34, a partition value from the GS1 table and field values within the GS1 digit counts (what happens on the other identifiers is C38 and C39)", "why_tests_cant": "2^88 identifiers", "anchors": ["tdt/core.go:Translate", "tdt/core.go:buildEPC", "tdt/epc.go:GIAI96PartitionTable"]}
{"id": "C38", "title": "Translation never crashes", "statement": "Translate returns a URN or an error for every PC and identifier received from a reader and never panics.", "quantifier": "all PC and identifier byte strings of any length", "why_tests_cant": "2^96 identifiers and all shorter ones", "anchors": ["tdt/core.go:Translate", "tdt/core.go:buildEPC", "tdt/core.go:buildUII"]}
{"id": "C39", "title": "Malformed EPCs are rejected", "statement": "Translate returns an error for identifiers that are not valid EPCs: unknown header, reserved partition value, or wrong length.", "quantifier": "all identifiers", "why_tests_cant": "2^96 identifiers", "anchors": ["tdt/core.go:buildEPC"]}
{"id": "C40", "title": "EPC encode/decode round trip", "statement": "Encoding valid SGTIN, SSCC, GRAI or GIAI fields as a 96-bit tag and translating the tag gives back the URN with the same fields.", "quantifier": "all digit strings of valid lengths and values, for the four schemes and all seven partitions", "why_tests_cant": "about 10^24 field combinations per scheme", "anchors": ["scheme/epc.go:MakeSGTIN96", "scheme/epc.go:MakeSSCC96", "scheme/epc.go:MakeGRAI96", "scheme/epc.go:MakeGIAI96", "tdt/core.go:Translate"]}
{"id": "C41", "title": "EPC encoders accept exactly the encodable fields", "statement": "The 96-bit encoders return a 12-byte tag with the scheme's header when every field fits its bit width, and an error otherwise.", "quantifier": "all non-empty digit strings as fields", "why_tests_cant": "infinite input", "anchors": ["scheme/epc.go:MakeSGTIN96", "scheme/epc.go:MakeSSCC96", "scheme/epc.go:MakeGRAI96", "scheme/epc.go:MakeGIAI96"]}
{"id": "C42", "title": "ISO 17363/17365 encode/decode round trip", "statement": "Encoding valid ISO 17363 or ISO 17365 fields and translating the resulting identifier with its PC gives the URN with the concatenated fields (and the ISO 6346 check digit for 17363).", "quantifier": "all texts over the 6-bit character set without spaces and of at most 82 characters (the longest the PC can describe)", "why_tests_cant": "infinite input", "anchors": ["scheme/iso.go:MakeISO17363", "scheme/iso.go:MakeISO17365", "scheme/iso.go:Pad6BitEncodingRuneSlice", "tdt/core.go:buildUII", "tdt/core.go:parse6BitEncodedByteSliceToString"]}
{"id": "C43", "title": "ISO 6346 check digit", "statement": "The check digit is the ISO 6346 weighted sum modulo 11 modulo 10, always a single digit for valid codes; codes of another length are refused. Any single wrong digit changes the weighted sum modulo 11, and a wrong letter goes unnoticed only when both letters have the same value modulo 11.", "quantifier": "all 10-character container codes", "why_tests_cant": "about 3.6*10^15 codes", "anchors": ["scheme/iso.go:GetISO6346CD", "tdt/iso.go:getISO6346CD"]}
{"id": "C44", "title": "Pattern filters select exactly the tags with the given fields", "statement": "For valid fields, the binary prefix filter of an EPC pattern matches a tag encoded by the same scheme exactly when the tag's leading fields equal the pattern's fields.", "quantifier": "all patterns with 1 to 4 fields and all tags of the four EPC schemes", "why_tests_cant": "infinite product of patterns and tags", "anchors": ["tdt/epc.go:NewPrefixFilterSGTIN96", "tdt/epc.go:NewPrefixFilterSSCC96", "tdt/epc.go:NewPrefixFilterGRAI96", "tdt/epc.go:NewPrefixFilterGIAI96", "filtering/filter_object.go:Match"]}
{"id": "C45", "title": "ISO pattern filters select exactly the tags starting with the pattern", "statement": "For valid 6-bit characters, the binary prefix filter of an ISO 17363/17365 pattern matches an encoded identifier exactly when the identifier's text starts with the concatenated pattern fields.", "quantifier": "all patterns with 1 to 4 fields and all ISO tags", "why_tests_cant": "infinite product", "anchors": ["tdt/iso.go:NewPrefixFilterISO17363", "tdt/iso.go:NewPrefixFilterISO17365"]}
{"id": "C46", "title": "Encoder prefix and pattern filter agree", "statement": "The prefix-only output of the tag encoders (prefix bits and pattern URN) is the same filter the subscription side computes for that pattern.", "quantifier": "all field values of all schemes", "why_tests_cant": "two independent implementations over infinite input", "anchors": ["scheme/epc.go:MakeSGTIN96", "tdt/epc.go:NewPrefixFilterSGTIN96", "scheme/iso.go:MakeISO17363", "tdt/iso.go:NewPrefixFilterISO17363"]}
{"id": "C47", "title": "End to end reporting", "statement": "A tag encoded from valid SGTIN fields and read by the system is reported to a subscriber exactly when one of the subscriber's SGTIN patterns names the tag's leading fields, and the reported pure identity is the tag's URN.", "quantifier": "all subscription maps of valid SGTIN patterns, all valid SGTIN tags", "why_tests_cant": "composition of encoder, pattern parser, filter engine and translator", "anchors": ["filtering/list.go:NewList", "filtering/list.go:Search", "filtering/subscriptions.go:ToByteSubscriptions"]}
{"id": "C48", "title": "Engine factory activation", "statement": "Once the engine factory is active it stays active, and the engine it searches with is always one that has been generated.", "quantifier": "every interleaving of generation, status and ticker events", "why_tests_cant": "schedules are unbounded", "anchors": ["filtering/engine_factory.go:Run", "filtering/engine_factory.go:IsActive", "filtering/engine_factory.go:Search"]}
{"id": "C49", "title": "Deployment priority", "statement": "Without performance data, after any order of engine-generated notifications the selected engine is the generated engine of highest deployment priority.", "quantifier": "every order and repetition of notifications", "why_tests_cant": "schedules are unbounded", "anchors": ["filtering/engine_factory.go:Run", "filtering/engine_factory.go:NewEngineFactory"]}
{"id": "C50", "title": "Performance driven selection", "statement": "At each evaluation tick with some positive throughput recorded, the selected engine has maximal recorded throughput, for every iteration order of the performance table.", "quantifier": "every performance table and iteration order", "why_tests_cant": "iteration order is unspecified", "anchors": ["filtering/engine_factory.go:Run"]}
{"id": "C51", "title": "Run-time subscription management", "statement": "An AddSubscription or DeleteSubscription management message changes the set of reported subscriptions accordingly.", "quantifier": "every engine factory state and every message", "why_tests_cant": "must hold for every history", "anchors": ["filtering/engine_factory.go:Run", "filtering/engine_generator.go:enterRebuilding"]}
{"id": "C52", "title": "Engine generator life cycle", "statement": "An engine generator only moves along unavailable, generating, ready, pending, rebuilding, ready; illegal events are rejected without a state change; a ready generator always has an engine.", "quantifier": "every sequence of events", "why_tests_cant": "unbounded event sequences", "anchors": ["filtering/engine_generator.go:NewEngineGenerator", "filtering/engine_generator.go:enterGenerating", "filtering/engine_generator.go:enterReady"]}
{"id": "C53", "title": "Traffic statistics", "statement": "Each reporting interval publishes the number of searches and of matching searches since the previous tick, and over any history the published event counts plus the pending one sum to the number of completed searches.", "quantifier": "every interleaving of searches and ticks", "why_tests_cant": "unbounded interleavings", "anchors": ["filtering/engine_generator.go:NewEngineGenerator", "filtering/engine_generator.go:Search"]}
{"id": "C54", "title": "Each statistics point is written once", "statement": "Every statistic received by the stat manager is written to the database exactly once.", "quantifier": "every sequence of statistic messages", "why_tests_cant": "unbounded histories", "anchors": ["monitoring/stat_manager.go:NewStatManager"]}
{"id": "C55", "title": "LLRP framing", "statement": "The receive loop splits any byte stream formed by concatenated LLRP messages into exactly those messages, and never reads across a message boundary.", "quantifier": "every sequence of messages with payloads of any size", "why_tests_cant": "unbounded streams", "anchors": ["cmd/gosstrak-fc/main.go:run"]}
{"id": "C56", "title": "Report aggregation", "statement": "For a batch of read events, the report of a destination is exactly the sequence of pure identities of the events that matched it, in event order; events that fail to match or translate contribute nothing.", "quantifier": "every batch and every engine behaviour", "why_tests_cant": "unbounded batches", "anchors": ["cmd/gosstrak-fc/main.go:run"]}
{"id": "C57", "title": "Truncated saved data is rejected", "statement": "Restoring an engine or a subscription map from saved data that was cut off at any point returns an error, and what has been restored by then is a part of what was saved.", "quantifier": "every engine or subscription map and every point at which the data is cut off", "why_tests_cant": "every crash point while writing, for unbounded data", "anchors": ["filtering/list.go:UnmarshalBinary", "filtering/patricia_trie.go:UnmarshalBinary", "filtering/splay_tree.go:UnmarshalBinary", "filtering/legacy_engine.go:UnmarshalBinary", "filtering/subscriptions.go:UnmarshalBinary"]}
{"id": "C58", "title": "Partial subscription save/restore", "statement": "Serialising a PartialSubscription and deserialising the bytes yields the same offset, report URI and nested subset, in whatever order the nested maps were written.", "quantifier": "every nesting depth and width, every map iteration order", "why_tests_cant": "unbounded recursive data and nondeterministic map order", "anchors": ["filtering/subscriptions.go:PartialSubscription.MarshalBinary", "filtering/subscriptions.go:PartialSubscription.UnmarshalBinary"]}
{"id": "C59", "title": "An engine refuses data of another engine type", "statement": "Deserialising data that was saved by another engine type, or that does not begin with the engine's own type name, returns an error and leaves the engine as it was.", "quantifier": "every pair of different engine types and every saved content", "why_tests_cant": "every content of four engine types", "anchors": ["filtering/list.go:UnmarshalBinary", "filtering/patricia_trie.go:UnmarshalBinary", "filtering/splay_tree.go:UnmarshalBinary", "filtering/legacy_engine.go:UnmarshalBinary"]}
{"id": "C60", "title": "Answers do not depend on the selected engine", "statement": "Whatever engine the factory has selected and however the goroutines interleave, a search is answered with exactly the URIs whose subscriptions ask for a prefix of the tag's identifier; a change of the selected engine cannot be noticed in the answers.", "quantifier": "every schedule of generation, monitoring, selection, management messages and searches; every subscription map and tag", "why_tests_cant": "the selected engine depends on timing; schedules are unbounded", "anchors": ["filtering/engine_factory.go:Search", "filtering/engine_factory.go:Run", "filtering/engine_generator.go:Search"]}
{"id": "C61", "title": "End to end through the factory", "statement": "A tag encoded from valid EPC fields and searched through the running factory is reported to exactly the subscribers one of whose EPC patterns names leading fields of the tag, with the tag's URN.", "quantifier": "all subscription maps of valid EPC patterns, all valid tags, all schedules", "why_tests_cant": "composition of encoding, subscription conversion, engines and concurrent factory", "anchors": ["filtering/engine_factory.go:Search", "scheme/epc.go:MakeSGTIN96", "tdt/core.go:Translate", "filtering/subscriptions.go:ToByteSubscriptions"]}
{"id": "C62", "title": "Published counts reach main", "statement": "Every traffic count that a throughput monitor publishes is delivered to main exactly once, and none is invented.", "quantifier": "every interleaving of monitors, listener, ticker and main", "why_tests_cant": "message routing through a channel with several senders and receivers, unbounded histories", "anchors": ["filtering/engine_factory.go:Run", "filtering/engine_generator.go:NewEngineGenerator", "cmd/gosstrak-fc/main.go:run"]}
{"id": "C63", "title": "Searches can always complete", "statement": "Whenever a search is under way, the goroutines' own steps can bring it to an answer: no deadlock of the factory, its monitors and the management channel stands in the way.", "quantifier": "every reachable state of every schedule", "why_tests_cant": "deadlocks depend on the schedule", "anchors": ["filtering/engine_factory.go:Search", "filtering/engine_factory.go:Run", "filtering/engine_generator.go:NewEngineGenerator"]}
{"id": "C64", "title": "The recorded throughput is the latest", "statement": "The throughput recorded for an engine is the one its monitor published last.", "quantifier": "every interleaving of monitors, listener and main", "why_tests_cant": "depends on message order in every schedule", "anchors": ["filtering/engine_factory.go:Run"]}
{"id": "C65", "title": "Main is told of every selection", "statement": "Main receives a SelectedEngine message for every selection, and the engine named in it has been generated.", "quantifier": "every interleaving", "why_tests_cant": "depends on the schedule", "anchors": ["filtering/engine_factory.go:Run", "cmd/gosstrak-fc/main.go:run"]}
{"id": "C66", "title": "Statistics never stop the program", "statement": "Whatever statistics the factory produces, recording them does not end the program: every one of them can be stored.", "quantifier": "every schedule of the factory and every duration of the searches", "why_tests_cant": "depends on the measured times of every run: a single interval measured as zero is enough", "anchors": ["monitoring/stat_manager.go:NewStatManager", "cmd/gosstrak-fc/main.go:run", "filtering/engine_generator.go:NewEngineGenerator"]}
{"id": "C67", "title": "The engine series tells the selected engine", "statement": "The value recorded in the 'engine' series identifies the engine selected at that time, and says so when none is.", "quantifier": "every schedule of the factory", "why_tests_cant": "depends on when the ticker fires with respect to the first engine's announcement", "anchors": ["monitoring/stat_manager.go:NewStatManager", "filtering/engine_factory.go:Run"]}
{"id": "C68", "title": "LLRP replies", "statement": "Each reader event notification is answered by exactly one configuration request, each keepalive by exactly one acknowledgement, in the order of arrival and with the configured message id; nothing else is written to the reader.", "quantifier": "every sequence of messages, in any segmentation of the stream", "why_tests_cant": "unbounded streams; the message id depends on initialisation order", "anchors": ["cmd/gosstrak-fc/main.go:run", "cmd/gosstrak-fc/main.go:currentMessageID"]}
{"id": "C69", "title": "From the wire to the reports", "statement": "For every tag report received on the connection, the report prepared for each destination holds exactly the URNs of the tags that one of its patterns selects, in the order of the report, whatever engine is selected and however the goroutines interleave.", "quantifier": "every stream of LLRP messages, every set of EPC patterns, every schedule of the factory", "why_tests_cant": "unbounded streams and schedules", "anchors": ["cmd/gosstrak-fc/main.go:run", "filtering/engine_factory.go:Search"]}
{"id": "C70", "title": "Tags and prefixes as text", "statement": "For every set of valid fields MakeEPC and MakeISO return the identifier as a bit string and the PC bits in hexadecimal; reading these two texts back gives an identifier and PC bits that translate to the URN of the fields. In prefix mode they return the pattern of the given fields and exactly the filter string a subscription with that pattern gets. Fields that fit no tag are reported as an error.", "quantifier": "every scheme (name in any case), every combination of fields, arguments of other schemes arbitrary", "why_tests_cant": "unbounded field values across six schemes; a round trip through three encoders and two parsers", "anchors": ["scheme/generate.go:MakeEPC", "scheme/generate.go:MakeISO", "cmd/gobtags/main.go:makeByteID", "cmd/gobtags/main.go:makeUint16PC"]}
{"id": "C71", "title": "Reading tag texts", "statement": "makeByteID gives the identifier whose bits the text shows and an error for any other text; makeUint16PC gives the value of the hexadecimal numeral when it fits 16 bits and an error for any other text.", "quantifier": "every text", "why_tests_cant": "all strings", "anchors": ["cmd/gobtags/main.go:makeByteID", "cmd/gobtags/main.go:makeUint16PC"]}
{"id": "C72", "title": "Generated data sets", "statement": "Every file written by the data set generator has one line per serial number, each of which reads back to a tag with the expected identity, and every filter written for the same parameter is the filter of its pattern and matches these tags. The generator finishes whatever is drawn.", "quantifier": "every list of parameters and every sequence of random draws within the generator's ranges", "why_tests_cant": "random draws; unbounded parameter lists", "anchors": ["test/gendataset.go:generateUIISet", "test/gendataset.go:main", "scheme/generate.go:PrintID"]}
{"id": "C73", "title": "The text of a filter identifies it", "statement": "ToString of a filter shows its pattern, its bit offset and its length in decimal, and two filters with the same text are the same filter.", "quantifier": "every pattern text and every offset", "why_tests_cant": "injectivity over all strings and numbers", "anchors": ["filtering/filter_object.go:ToString", "filtering/filter_object.go:NewFilter"]}
{"id": "C74", "title": "Dump shows the whole engine", "statement": "Dump of an engine never crashes, and two engines of the same kind with the same dump are the same engine: same filters, report URIs and structure, hence the same answers to every later call. (The test suite compares engines by their dumps.)", "quantifier": "every pair of engines of one kind, each after any history of calls; report URIs without line breaks", "why_tests_cant": "two arbitrary histories", "anchors": ["filtering/list.go:Dump", "filtering/patricia_trie.go:Dump", "filtering/patricia_trie.go:print", "filtering/splay_tree.go:Dump", "filtering/splay_tree.go:print", "filtering/legacy_engine.go:Dump"]}
{"id": "C75", "title": "Dump shows the whole nested subscriptions", "statement": "Two byte subscriptions, nested to any depth, with the same dump are the same: prefixes, offsets, report URIs and nesting.", "quantifier": "every pair of nested byte subscriptions; report URIs without line breaks", "why_tests_cant": "unbounded nesting", "anchors": ["filtering/subscriptions.go:ByteSubscriptions.Dump", "filtering/subscriptions.go:ByteSubscriptions.print"]}
{"id": "C76", "title": "The common prefix that is found is really shared", "statement": "Looking for a partial common prefix in a list of bit strings ends, and returns a prefix that at least two of the strings share together with the number of strings that share it (which is the majority prefix, according to its documentation), or the empty prefix and 0 when no such prefix exists.", "quantifier": "every list of strings", "why_tests_cant": "lists of any number of strings of any length", "anchors": ["filtering/engine.go:findPartialLCP", "filtering/engine.go:lcp"]}
{"id": "C77", "title": "Grouping subscriptions by common prefix loses nothing", "statement": "Grouping byte subscriptions by common prefix ends; every (prefix, report URI) pair can still be read off the nested result at its place, offsets are the depths, the only additions are nodes without a report URI at starts that several subscriptions share, and afterwards every subscription lies under the subscriptions whose prefix it extends.", "quantifier": "every map of byte subscriptions", "why_tests_cant": "the outcome depends on all keys together and on the order of rounds; no test calls it", "anchors": ["filtering/subscriptions.go:makePatriciaSubset", "filtering/engine.go:findPartialLCP", "filtering/subscriptions.go:linkSubset"]}
{"id": "C78", "title": "The comparison of engines' trees means equality", "statement": "The comparison helpers of the Patricia trie and the splay tree answer true exactly for equal trees, and otherwise return two nodes at the same place that differ. (The test suite decides with them whether a built tree is right.)", "quantifier": "every pair of non-empty trees", "why_tests_cant": "trees of any size; the helpers are themselves the tests' oracle", "anchors": ["filtering/patricia_trie.go:equal", "filtering/splay_tree.go:equal"]}
{"id": "C79", "title": "Six-bit text can be read back", "statement": "The six-bit encoding writes the six low bits of every character in order; two texts of characters of the six-bit alphabet with the same encoding are equal; padding only appends, to the next multiple of sixteen bits, the bits 100000 over and over, in both packages alike; and membership of a string in a list is what it says.", "quantifier": "every text, bit string and list", "why_tests_cant": "injectivity over all texts", "anchors": ["scheme/generate.go:Sixenc2bin", "scheme/iso.go:Pad6BitEncodingRuneSlice", "tdt/iso.go:pad6BitEncodingRuneSlice", "scheme/generate.go:CheckIfStringInSlice"]}
{"id": "C80", "title": "The six-bit tool answers every command line", "statement": "The sixenc2bin tool prints the six-bit encoding of its argument, and a message when it gets none.", "quantifier": "every command line", "why_tests_cant": "every argument text", "anchors": ["scheme/sixenc2bin/main.go:main"]}
{"id": "C81", "title": "A subscription file is read as it was written", "statement": "The fields read from a subscription file are exactly the fields its CSV text stands for (quotes, doubled quotes, commas and line breaks inside quotes, empty lines, LF or CR LF), every address gets the patterns of its lines in order, and a file is refused, with a crash, exactly when it is not in that format.", "quantifier": "every file content", "why_tests_cant": "all texts; the claim includes that no other text is accepted", "anchors": ["filtering/subscriptions.go:LoadSubscriptionsFromCSVFile"]}
{"id": "C82", "title": "A malformed line does not disturb the others", "statement": "Loading a subscription file never crashes: a malformed line is skipped and the other lines are loaded.", "quantifier": "every file content", "why_tests_cant": "the set of malformed texts is infinite", "anchors": ["filtering/subscriptions.go:LoadSubscriptionsFromCSVFile"]}
{"id": "C83", "title": "From the file to the report", "statement": "With subscriptions loaded from a file, a tag is reported to exactly the addresses of the lines that have a pattern matching it.", "quantifier": "every file content, every iteration order of the map and every tag", "why_tests_cant": "composes file reading, conversion and search over all inputs and orders", "anchors": ["filtering/subscriptions.go:LoadSubscriptionsFromCSVFile", "filtering/subscriptions.go:ToByteSubscriptions", "filtering/list.go:Search"]}
{"id": "C84", "title": "A pattern accepted by the loader is honoured in any letter case", "statement": "The loader accepts the pattern scheme in any letter case, and a pattern has the same effect in any letter case.", "quantifier": "every pattern", "why_tests_cant": "all patterns and spellings", "anchors": ["filtering/subscriptions.go:LoadSubscriptionsFromCSVFile", "filtering/subscriptions.go:ToByteSubscriptions"]}
{"id": "C85", "title": "Every generated filter ends up in the filter file", "statement": "When the data set generator ends, its filter file holds every filter of every set it made, after what was there before.", "quantifier": "every parameter list, draw, number of workers and schedule", "why_tests_cant": "all interleavings of main, the workers and the filter writer", "anchors": ["test/gendataset.go:filterWriter", "test/gendataset.go:generateUIISet", "test/gendataset.go:main"]}
{"id": "C86", "title": "The data set generator always finishes", "statement": "Whatever the scheduler does, the generator cannot run forever or get stuck: every run is finite and, until the program has ended, some goroutine can go on.", "quantifier": "every parameter list of the kind main draws, channel capacity, number of workers and schedule", "why_tests_cant": "termination and freedom from deadlock over all schedules", "anchors": ["test/gendataset.go:generateUIISet", "test/gendataset.go:main"]}
{"id": "C87", "title": "Every parameter gets its own complete tag file", "statement": "When the generator ends, every parameter was dealt with exactly once, its tag file is complete and well formed, the filters of its set were sent, and no other file was touched.", "quantifier": "every parameter list, draw, earlier content of the directory, number of workers and schedule", "why_tests_cant": "all interleavings of file checks, creations and partial writes", "anchors": ["test/gendataset.go:generateUIISet", "test/gendataset.go:main"]}
{"id": "C88", "title": "The data set has as many filters as asked for", "statement": "The generator makes 20 filters for each round, and as many rounds as the requested share of the requested number of subscriptions.", "quantifier": "every request, draw and schedule", "why_tests_cant": "floating point rounding and counts over all draws", "anchors": ["test/gendataset.go:main", "test/gendataset.go:generateUIISet"]}
{"id": "C89", "title": "Tags of the sets without filters match no filter", "statement": "A tag of a set that was generated without filters is matched by none of the filters of the data set.", "quantifier": "every pair of rounds, every draw and every tag", "why_tests_cant": "all drawn values", "anchors": ["test/gendataset.go:main", "test/gendataset.go:generateUIISet", "filtering/filter_object.go:Match"]}
{"id": "C90", "title": "Where a generated set of tags goes", "statement": "Each set goes to a file named after its scheme and the values that identify it; two sets share a file exactly when they are the same set, and no file has the name of a directory another file needs.", "quantifier": "every pair of parameters of any two rounds", "why_tests_cant": "all pairs of drawn values", "anchors": ["test/gendataset.go:generateUIISet", "test/gendataset.go:main"]}
{"id": "C91", "title": "The recorded matching probability is a percentage", "statement": "Every matching probability written to the database lies between 0 and 100, and is 100 exactly when all events of the interval matched.", "quantifier": "every interleaving of searches, throughput monitors, the factory and main; every pair of counts", "why_tests_cant": "depends on the schedule and on the rounding of every pair of 64-bit counts", "anchors": ["monitoring/stat_manager.go:NewStatManager", "filtering/engine_generator.go:NewEngineGenerator", "filtering/engine_generator.go:Search"]}
{"id": "C92", "title": "Restoring replaces what the engine held", "statement": "Restoring saved data into an engine that already holds subscriptions (UnmarshalBinary without an error) leaves it with the saved subscriptions and nothing else, as if the data had been restored into a fresh engine.", "quantifier": "every saved engine or subscription map and everything the receiving one held before", "why_tests_cant": "all pairs of engine contents of any size; a test restores into a fresh engine", "anchors": ["filtering/list.go:UnmarshalBinary", "filtering/patricia_trie.go:UnmarshalBinary", "filtering/splay_tree.go:UnmarshalBinary", "filtering/legacy_engine.go:UnmarshalBinary", "filtering/subscriptions.go:UnmarshalBinary"]}
{"id": "C93", "title": "A subscription stands for a string of bits", "statement": "Every subscription pattern that is not ignored is converted to a prefix over the characters 0 and 1, so that the filter made from it selects tags by their bits.", "quantifier": "every pattern text of every type, every map of subscriptions, every history of changes", "why_tests_cant": "all texts; a test tries well-formed patterns", "anchors": ["filtering/subscriptions.go:ToByteSubscriptions", "tdt/core.go:MakePrefixFilterString", "tdt/epc.go:getFilter", "filtering/filter_object.go:NewFilter"]}
{"id": "C94", "title": "A change of the selected engine never crashes a search", "statement": "A tag that arrives while the selected engine is being changed is answered by an engine that exists, the one selected before or after the change, and the program does not crash.", "quantifier": "every interleaving of single memory accesses by the search, the listener and the ticker; every order in which the compiler accesses the two words of a string; every choice of engines; any number of changes", "why_tests_cant": "the name of the selected engine is a two-word value that three goroutines access without a lock; whether a search sees half of a change depends on the instruction at which a thread is stopped", "anchors": ["filtering/engine_factory.go:Search", "filtering/engine_factory.go:IsActive", "filtering/engine_factory.go:Run", "filtering/engine_factory.go:currentEngineName"]}
{"id": "C95", "title": "A search compares few filters", "statement": "A search of the List engine compares every stored subscription exactly once with the tag. A search of the Patricia trie compares at most one filter for each bit of the identifier and one more, however many subscriptions there are and whatever was added and deleted, and in a trie just built never more filters than there are subscriptions. A search of the splay tree never compares more filters than it has nodes, nor (in histories within its limits) than there are subscriptions.", "quantifier": "every set of subscriptions, every history of changes and searches, every tag identifier", "why_tests_cant": "A benchmark measures a few subscription sets and tags; the bound has to hold for the worst of all sets, histories and tags.", "anchors": ["filtering/list.go: List.Search", "filtering/patricia_trie.go: PatriciaTrieNode.search, build, add, delete", "filtering/splay_tree.go: SplayTreeNode.splaySearch", "filtering/filter_object.go: FilterObject.Match"]}
{"id": "C96", "title": "The splay tree adapts to the tags that come", "statement": "Over any sequence of searches the splay tree compares at most twice as many filters as it would with its outer entries in any fixed order, even the best one for that sequence, plus half the square of the number of these entries. A tag searched again right away costs one comparison for each URI reported and at most one more.", "quantifier": "every set of subscriptions, every history before, every sequence of tags, every order of the entries", "why_tests_cant": "The comparison is with the best of all orders for each of infinitely many sequences of searches.", "anchors": ["filtering/splay_tree.go: SplayTreeNode.splaySearch (Do Splay), SplayTree.Search"]}
{"id": "C97", "title": "A selection is told as made, and an announcement only replaces a lesser engine", "statement": "Whenever the factory announces or ticks: an engine that has just been generated replaces the selected one only if its deployment priority is higher; every change of the selected engine is told to the main program by a message naming the engine changed to; and when nothing is in progress the last message names the engine that is selected.", "quantifier": "every interleaving of the listener and the ticker at the level of single accesses to the selected engine's name, every sequence of announcements and ticks, every outcome of the measurements", "why_tests_cant": "The two goroutines share the name without a lock: a wrong outcome needs the ticker to run between two adjacent statements of the listener, which no test can arrange.", "anchors": [{"file": "filtering/engine_factory.go", "symbol": "EngineFactory.Run (92-117, 166-186)"}, {"file": "filtering/management_message.go", "symbol": "SelectedEngine"}]}
{"id": "C98", "title": "Tag reports are worked off completely and in order, and replies do not wait for them", "statement": "Every tag report received from the reader is searched for completely, event by event and in the order of arrival, before the program ends; meanwhile notifications and keepalives that have arrived are answered without waiting for the searches; and the two activities never block each other for good.", "quantifier": "every sequence of LLRP messages, in any segmentation of the stream, ended by a broken connection or an unknown message; every interleaving of the receive loop and the searching goroutine", "why_tests_cant": "It depends on how far the searches have come when the next message or the end of the connection is read, which a test does not control.", "anchors": [{"file": "cmd/gosstrak-fc/main.go", "symbol": "run (217-246, 261-304)"}]}
{"id": "C99", "title": "A main program that is held up does not hold up the searches", "statement": "A search that has begun is answered by the engines' goroutines alone, even while the main program takes no message from the factory (for instance because it waits for the monitoring database).", "quantifier": "every interleaving of the factory's goroutines, every engine and subscription set, every number of messages the main program has left waiting, any capacity of the channel", "why_tests_cant": "The search blocks only after the channel of 128 messages has filled up, which takes minutes of a stalled database at the default interval, and then only if the report of a search finds the monitor waiting to publish.", "anchors": [{"file": "filtering/engine_generator.go", "symbol": "NewEngineGenerator (68-102), Search (108-115)"}, {"file": "filtering/engine_factory.go", "symbol": "EngineFactory.Run (92-190)"}, {"file": "cmd/gosstrak-fc/main.go", "symbol": "run (132-168)"}]}
