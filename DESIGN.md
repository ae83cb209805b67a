# Formal model of iomz/gosstrak — design

Everything is in `rocq/theories`, logical name `Verif`, Coq 8.16.1, standard library only.
The properties are in `properties.jsonl`; `MANIFEST.json` links each one to its theorems.

## 1. File layout

| files | content |
|---|---|
| `GoBase.v` | Go strings (lists of bytes), results (`Ok`/`Err`/`Panic`), byte operations, string helpers, sorted maps |
| `BinUtil.v` | what the code calls in the external package go-llrp/binutil, and the random oracle `env` |
| `M*.v` | the model: definitions only, each with a `file:lines` citation into /repo |
| `Spec*.v` | the independent vocabulary of the theorem statements (no proofs; histories of calls are written as folds of the modelled methods, views of trees as plain recursion) |
| `TestVectors.v`, `PExamples.v` | values taken from the project's own tests, and worked examples |
| `P*.v` | proofs |
| `Props*.v` | the property theorems, each with an example that meets its hypotheses, and `Print Assumptions` |

| model file | Go source |
|---|---|
| `MFilter` | filtering/filter_object.go |
| `MEngine` | filtering/engine.go (`lcp`, `getNextBit`, `findPartialLCP`) |
| `MSubs`, `MCsv` | filtering/subscriptions.go; the reading of its CSV file through encoding/csv |
| `MList`, `MPatricia`, `MSplay` | filtering/list.go, patricia_trie.go, splay_tree.go |
| `MEffort` | the searches of these three files once more, counting comparisons |
| `MDraws` | ToByteSubscriptions and the updates of the three engines with separate random draws |
| `MSlice`, `MLegacy` | Go slices with shared arrays; filtering/legacy_engine.go |
| `MComposition` | filtering/composition.go |
| `MGob` | MarshalBinary and UnmarshalBinary of every engine and of the subscriptions |
| `MRestore` | UnmarshalBinary of the two trees on an engine that already holds subscriptions |
| `MGroup` | grouping by common prefix: findPartialLCP, makePatriciaSubset |
| `MHelpers` | the tests' tree comparison (`equal`), CheckIfStringInSlice, scheme/sixenc2bin/main.go |
| `MDump` | Dump and print of every engine and of the nested subscriptions |
| `MTdtEpc`, `MTdtIso` | tdt/epc.go, tdt/iso.go (pattern prefixes, check digit) |
| `MTdtCore` | tdt/core.go (Translate, the 96-bit and six-bit decoders) |
| `MScheme` | scheme/epc.go, scheme/iso.go, scheme/generate.go (encoders) |
| `MGenerator`, `MFactory`, `MSystem` | filtering/engine_generator.go, engine_factory.go, management_message.go and their users in cmd/gosstrak-fc/main.go |
| `MStat` | monitoring/stat_manager.go, stat_message.go |
| `MWord` | the two words of currentEngineName, filtering/engine_factory.go:28, 32-47, 109, 170, 179 |
| `MSelect` | the selection of an engine, one access to currentEngineName per step, filtering/engine_factory.go:92-117, 166-186 |
| `MMain` | cmd/gosstrak-fc/main.go (LLRP loop, replies, reports) |
| `MPipe` | the receive loop and the searching goroutine of main.go with the channel between them, 217-246, 261-304 |
| `MTools` | cmd/gobtags/main.go, test/gendataset.go (one set at a time) |
| `MDataset` | test/gendataset.go as a concurrent program: main, the workers, the filter writer, the files |

Tools: `tools/manifest.py` collects the theorem names for MANIFEST.json, `tools/design.py` refreshes section 3 of this file,
`tools/mutate.py` rebuilds a scratch copy with one edit of the model at a time, `tools/seedlog.py` turns its results into `seeded/LOG.jsonl`.

## 2. Modelling conventions and simplifications

* A Go `string` is a list of bytes (`list ascii`).  `[]rune(s)` and `string(runes)` are the identity: exact for ASCII,
  the only alphabet of EPC/ISO identifiers and URNs.  Upper and lower casing acts on ASCII letters only.
  `%q` is exact for bytes below 127.
* A byte is an `N`.  The hypothesis `wf_bytes` says that every element is below 256, which Go's types guarantee.
* `int` is unbounded (`nat`, `N` or `Z`).  Wrapping is written out where it can be reached (uint8 shifts, the uint32 LLRP length).
* A Go call that can panic returns `Panic`, an error is `Err`.  No default value hides a panic.
* A pointer to a tree node becomes a value, `nil` is its own constructor, and a method that changes its receiver returns the new value.
  Where sharing can be seen (slices of the legacy engine, clones) the model has a heap of arrays (`MSlice`).
* A Go map is an association list without duplicate keys.  Where the code ranges over a map the list order *is* the iteration
  order, and theorems quantify over every permutation.  `ByteSubscriptions` is only iterated through `Keys()` (sorted), so it is its
  strictly sorted association list.
* Loops become structural recursion.  Building the Patricia trie and nesting subsets use fuel and return `None` when it runs
  out; the theorems show that the fuel given is always enough.
* A gob stream is the list of values passed to `Encode`, each with its type (see the head of `MGob.v`).
* Goroutines are a transition system.  A step is what one goroutine does between two touches of shared data or a channel, and
  theorems quantify over all interleavings.  Reading or writing one variable is one step, with one exception: `MWord.v` takes the
  accesses to the name of the selected engine, a string of two words, word by word (C94).
  `MFactory` takes the comparison with the selected engine, its replacement and the reading of its name for the message as one step;
  `MSelect.v` takes them apart (C97).  Reordering by the Go memory model is outside.
* Throughputs and the statistics written to the database are float64 values (`MFloat.v`); the integer counters they are computed from are
  unbounded, and theorems that need it say that the counts stay below 2^63 or 2^53.
* Random numbers are arbitrary: `env` (BinUtil) for the encoders, draws given as arguments for the data set generator.
  A random binary string of the encoders depends on its length only; the theorems hold for every such function.  `MDraws.v` has the
  conversion of patterns and the calls of the engines with every draw on its own; `C27_definite_histories` shows that nothing changes
  for patterns without empty fields, `C27_draws_refuted` what happens otherwise.

## 3. Properties: method and result

"Refuted" means that the code at this commit violates the property as stated: a `_refuted` theorem gives a concrete case, and the
other theorems say exactly, or under named conditions, what does hold.

<!-- begin properties -->
**C01 Filter matching is exact bitwise comparison** (proved). MFilter. A pattern padded to byte boundaries is compared bit by bit; the xor/or test of one byte is shown equal to eight bit tests by a finite check, bytes by induction.
Theorems: `C01_match_exact`, `C01_only_covered_bits`.
Result: All patterns over {0,1,x}, offsets and identifiers that cover the filter's bytes.

**C02 Matching a too-short identifier panics exactly when the identifier is exhausted** (proved). MFilter. Same lemma, following the index that first leaves the slice.
Theorems: `C02_short_id`.

**C03 Transparent filters are exactly those that match everything** (proved). MFilter. Transparency as a statement about all identifiers, by C01.
Theorems: `C03_transparent`.

**C04 Byte views of a filter are consistent** (proved). MFilter. Case analysis on the byte index, loop by induction.
Theorems: `C04_has_byte_at`, `C04_get_byte_at`, `C04_get_byte_at_negative`.

**C05 Longest common prefix** (proved). MEngine.lcp. Minimum and maximum in the lexicographic order bound every string; their common prefix is the common prefix of all.
Theorems: `C05_lcp`, `C05_lcp_empty`.

**C06 Bit addressing of identifiers** (proved). MEngine.get_next_bit. Bit i of the big-endian bit list.
Theorems: `C06_get_next_bit`.

**C07 List engine reports exactly the matching subscriptions** (proved). MList. Induction over the list; histories by an abstraction to (prefix, URI) pairs.
Theorems: `C07_list_search`, `C07_list_fresh`, `C07_list_search_short`.
Result: Every history of add/delete calls; prefixes over {0,1}; identifiers too short to decide a prefix make Search crash (C07_list_search_short).

**C08 List engine updates behave like a set** (proved). MList. Abstraction to pairs without repetition; every history.
Theorems: `C08_own_draws`, `C08_list_set`, `C08_list_order`, `C08_list_add_idempotent`, `C08_list_delete_absent`.
Result: C08_own_draws: the same with random bits drawn anew in every call, for any patterns.

**C09 Patricia trie search reports exactly the matching subscriptions** (partial). MPatricia. A trie denotes its (path, URI) pairs; build is shown to hold exactly the subscriptions but the common prefix, search to walk them.
Theorems: `C09_patricia_exact`, `C09_patricia_search_partial`, `C09_exactly_partial`, `C09_single_refuted`, `C09_refuted`.
Result: False in general: the subscription whose prefix is the common prefix of all is never reported (C09_refuted, C09_single_refuted). C09_patricia_exact gives the exact behaviour for every subscription set; C09_exactly_partial shows that the property holds for a subscription set exactly when the common prefix is not subscribed.

**C10 Patricia trie add** (partial). MPatricia. Invariant over histories: well-formed trie, content as a finite map; top_down (Spec) says which additions are safe. The nodes of the trie are then characterised by the prefixes alone (SpecPlaces, PPlaces), by induction over building, adding and removing, which gives exact conditions on histories.
Theorems: `C10_patricia_history_partial`, `C10_patricia_add_partial`, `C10_refuted`, `C10_careful_history_partial`, `C10_misplaced_refuted`, `C10_places_partial`, `C10_add_exactly_partial`, `C10_exactly_partial`.
Result: False in general: C10_misplaced_refuted shows that the first badly placed addition (no node at the prefix, but a node below it) always loses the new subscription; C10_careful_history_partial is the property for every history of well placed changes, from any starting subscriptions; C10_patricia_history_partial gives a condition on the history alone (top_down). The boundary told from the prefixes alone, without the trie (SpecPlaces: the places are where subscribed prefixes part): C10_places_partial, and exactly for one more subscription (C10_add_exactly_partial) and for whole histories of single updates (C10_exactly_partial).

**C11 Patricia trie delete** (partial). MPatricia. Same invariant, for deletions. Exact condition by the characterisation of the nodes in PPlaces.
Theorems: `C11_patricia_delete_partial`, `C11_refuted`, `C11_misplaced_refuted`, `C11_delete_exactly_partial`.
Result: False exactly when the prefix to remove is subscribed and has the only node of the trie (C11_misplaced_refuted, C11_refuted). Proved otherwise: C10_careful_history_partial covers deletions in every well placed history, C11_patricia_delete_partial every top-down history. C11_delete_exactly_partial: after a well placed history a removal is answered rightly if and only if the prefix does not have the only place (SpecPlaces).

**C12 Splay tree first search is exact** (partial). MSubs.link_subset and MSplay. Nesting is a forest whose flattening is the subscription set; the first search walks it.
Theorems: `C12_splay_first_search_partial`, `C12_refuted`, `C12_exactly_partial`.
Result: Proved for every non-empty subscription set; an engine without subscriptions crashes on every search (C12_refuted). C12_exactly_partial: the first searches are right if and only if something is subscribed.

**C13 Splay tree answers do not depend on search history** (partial). MSplay. Splaying only moves nodes: invariant snarrow/chain condition over every sequence of searches.
Theorems: `C13_splay_search_history_partial`, `C13_refuted`, `C13_exactly_partial`, `C13_fork_refuted`.
Result: Proved for every search history when the extensions of each subscribed prefix form a chain, and this condition is exact (C13_exactly_partial): with two incomparable extensions of one prefix some tag loses a URI on its second search (C13_fork_refuted, C13_refuted).

**C14 Splay tree add** (partial). MSplay. Invariant over calm histories (Spec). Exactness by counting the reported URIs for a long enough tag below the prefix (PSplayCalm).
Theorems: `C14_add_exactly_partial`, `C14_exactly_partial`, `C14_splay_history_partial`, `C14_splay_add_partial`, `C14_refuted`, `C14_new_prefix_partial`.
Result: Proved for every calm history of searches, additions and deletions. C14_new_prefix_partial gives the answers after adding any new prefix: exactly the tags with a subscribed extension of it miss it (C14_refuted is an instance). The limits are exact: C14_add_exactly_partial for one more subscription after a calm history, C14_exactly_partial for whole histories of single updates.

**C15 Splay tree delete** (partial). MSplay. Same invariant, for deletions. Exactness as for C14.
Theorems: `C15_delete_exactly_partial`, `C15_splay_delete_partial`, `C15_branches_refuted`, `C15_only_refuted`, `C15_refuted`, `C15_last_refuted`.
Result: Proved along calm histories. The excluded deletions always fail: a prefix with several branches above it stays with an empty URI (C15_branches_refuted), the only subscription stays (C15_only_refuted). C15_delete_exactly_partial: after a calm history a removal is answered rightly exactly outside these two cases.

**C16 All binary engines agree** (partial). Corollary of C07, C09, C12, C13.
Theorems: `C16_engines_agree_partial`, `C16_refuted`, `C16_exactly_partial`.
Result: Proved when the common prefix of all subscriptions is not itself subscribed and (if searches came before) extensions form chains; false in general (C16_refuted), and C16_exactly_partial shows that these two conditions are exactly what agreement needs.

**C17 Legacy engine search** (proved). MLegacy on MSlice (slices with shared backing arrays). Search is a fold over the map in any iteration order.
Theorems: `C17_search`, `C17_any_order`, `C17_reported`.
Result: Search is characterised for every iteration order (told/selects in SpecLegacy); patterns of unknown types and the first three parts of a pattern are compared/ignored as the code does.

**C18 Legacy engine agrees with the binary engines** (partial). MLegacy against MList, through the EPC fields (SpecEpc).
Theorems: `C18_refuted`, `C18_legacy_exact`, `C18_list_within_legacy`, `C18_agree_partial`, `C18_exactly_partial`, `C18_filter_value_refuted`.
Result: Refuted in general (filter value ignored, field prefixes, empty GRAI item reference, shared patterns), and for every subscriber who does not list all eight filter values (C18_filter_value_refuted). Proved: exact text selection, list reports are included in legacy reports, and agreement when filter values match and last fields are full. C18_exactly_partial gives the exact boundary tag by tag: the engines agree on a tag in every iteration order exactly when everyone whose text selects it has a pattern of their own that leads to it field by field.

**C19 Legacy engine add** (partial). MLegacy.legacy_add on a heap of arrays; ownership invariant.
Theorems: `C19_add_partial`, `C19_exactly_partial`, `C19_add_in_memory`, `C19_refuted`, `C19_shared_storage`.
Result: Adds all, keeps all; nothing twice unless the argument itself repeats a pattern (refuted otherwise). Storage sharing with the caller shown by C19_shared_storage. C19_exactly_partial: how often every pair is stored afterwards; nothing is stored twice if and only if nothing was before and the argument repeats no pair but stored ones.

**C20 Legacy engine delete** (partial). MLegacy.legacy_del with the in-place shift of append(s[:i], s[i+1:]...).
Theorems: `C20_delete_partial`, `C20_exact`, `C20_exactly_partial`, `C20_refuted`.
Result: Refuted when two stored patterns of one URI go at once; C20_exactly_partial: right if and only if at most one stored pattern per URI is named; C20_exact gives the result of every deletion.

**C21 List engine save/restore** (proved). MGob token streams; induction over the list.
Theorems: `C21_list_round_trip`, `C21_other_type_rejected`.
Result: Over the sequence of encoded values; encoding/gob is assumed to read back single values as written.

**C22 Patricia trie save/restore** (partial). MGob; gpruned describes what the decoder rebuilds from any trie.
Theorems: `C22_full_partial`, `C22_exact`, `C22_same_iff`, `C22_read_exact`, `C22_refuted`.
Result: Proved for tries in which every node has both children or none; C22_exact says what happens to every other trie and C22_same_iff when the trie comes back whole. False in general (C22_refuted): patricia_trie.go:174 tests hasOne instead of hasZero, so a zero branch without a one branch is dropped without an error, and a one branch alone makes a spurious error. C22_read_exact says the same of what is restored, read as a trie.

**C23 Splay tree save/restore** (proved). MGob; induction over the tree.
Theorems: `C23_splay_round_trip`, `C23_faithful`, `C23_read`, `C23_built_trees`.
Result: Into an engine whose root is nil. Encoding a nil root panics in gob; NewSplayTree never leaves it nil.

**C24 Legacy engine save/restore** (partial). MGob; exact behaviour of the loop that never stores.
Theorems: `C24_refuted`, `C24_nothing_stored`, `C24_empty_partial`, `C24_silent_exactly`, `C24_silent`.
Result: False for every engine with a subscription (C24_refuted): UnmarshalBinary never stores what it reads. Only the empty engine is restored (C24_empty_partial). C24_silent_exactly says when the loss goes without an error; always when each address has as many patterns as there are addresses (C24_silent).

**C25 Subscriptions save/restore and clone** (proved). MGob and MSubs.sub_clone; MSlice for independence of the copy.
Theorems: `C25_round_trip`, `C25_order_irrelevant`, `C25_nil_map`, `C25_clone`.
Result: Round trip for every iteration order and receiving map, independence of the bytes from the order, and the clone's separate storage. Restoring into a nil map panics (C25_nil_map).

**C26 Keys are the sorted key set** (proved). GoBase.sort_strings; sortedness plus permutation determines the result.
Theorems: `C26_keys_sorted`, `C26_keys_order_independent`, `C26_byte_keys`.

**C27 Conversion to binary subscriptions keeps every subscription** (partial). MSubs.to_byte_subs as a fold over stored pairs, any iteration order.
Theorems: `C27_definite`, `C27_definite_histories`, `C27_draws_refuted`, `C27_conversion_sound`, `C27_conversion_keeps_prefixes`, `C27_conversion_partial`, `C27_refuted_loss`, `C27_refuted_order`, `C27_last_wins`, `C27_exactly`.
Result: False when two URIs share a prefix (C27_refuted_loss, C27_refuted_order). The exact boundary is proved: both claims hold exactly when no prefix is asked for by two URIs (C27_exactly), and what is stored is always the last request (C27_last_wins). With random bits drawn anew for every pattern, patterns without empty fields are converted, and whole histories of the engines run, as with one source of random bits (C27_definite, C27_definite_histories); a pattern with an empty field stands for other tags at each conversion, so deleting it need not remove it (C27_draws_refuted).

**C28 Invalid patterns subscribe to nothing** (partial). MSubs.pattern_prefix; exact set of patterns that become the empty prefix.
Theorems: `C28_misshapen_ignored_partial`, `C28_rejected_catches_all_refuted`, `C28_refuted`, `C28_catches_all_exactly`.
Result: False: a rejected pattern of the shape type:fields becomes the empty prefix and catches every tag (C28_refuted, C28_rejected_catches_all_refuted); C28_catches_all_exactly gives exactly the patterns stored as the empty prefix. Patterns of another shape are ignored (proved).

**C29 Subset nesting preserves subscriptions** (proved). MSubs.link_subset; fuel shown sufficient, flattening equals the input.
Theorems: `C29_link_subset`, `C29_link_subset_subs`.
Result: For every flat set of prefix subscriptions.

**C30 CSV loading keeps exactly the well-formed rows** (proved). MSubs.load_csv over the parsed records (C81 for the text).
Theorems: `C30_csv`.
Result: From the records encoding/csv returns; C81 gives the reading of the file's text. Lower-casing is ASCII.

**C31 Composite filter never rejects a tag one of its members accepts** (proved). MComposition; induction over the members.
Theorems: `C31_composite_accepts`, `C31_bits`, `C31_disjoint`, `C31_exactly`.
Result: For every non-empty list of well-formed filters that share a byte, and every ID. C31_exactly: sharing a byte is also necessary, for otherwise there is no composition or the composite filter crashes on an identifier a member accepts.

**C32 Composite filter plus child filter equals the original filter** (partial). MComposition; the wildcard region by position.
Theorems: `C32_composite_and_child_partial`, `C32_exactly_partial`, `C32_refuted`.
Result: C32_exactly_partial: true for a list of filters exactly when they share a byte and filters with the same pattern text select the same identifiers (same offset, or no bit at all); C32_composite_and_child_partial: always true for the last filter with its text. Violated otherwise (C32_refuted): the children map is keyed by pattern text, so members with the same text at different offsets overwrite each other; and filters that only touch (one ends where the other begins) have an empty composite filter that crashes.

**C33 Grouping of sequential integers** (proved). MComposition.group_sequential; runs of consecutive integers.
Theorems: `C33_groups`, `C33_nothing`, `C33_unique`.
Result: Characterises the grouping completely: concatenation, consecutive groups, no two neighbours mergeable, and uniqueness. Integers are unbounded in the model.

**C34 SGTIN-96 decoding** (proved). MTdtCore: each shift and mask transcribed; spec is the big-endian bit field. Byte expressions are proved equal to bit slices once per partition.
Theorems: `C34_sgtin_decode`.
Result: For every identifier with the scheme's header whose partition and digits are valid; pure_identity_unique shows the specified URN is unique.

**C35 SSCC-96 decoding** (proved). As C34.
Theorems: `C35_sscc_decode`.
Result: For every identifier with the scheme's header whose partition and digits are valid; pure_identity_unique shows the specified URN is unique.

**C36 GRAI-96 decoding** (proved). As C34.
Theorems: `C36_grai_decode`.
Result: For every identifier with the scheme's header whose partition and digits are valid; pure_identity_unique shows the specified URN is unique. For partition 0 the URN has no asset-type field (the project's own test expects this; the GS1 standard would keep an empty field).

**C37 GIAI-96 decoding** (proved). As C34.
Theorems: `C37_giai_decode`.
Result: For every identifier with the scheme's header whose partition and digits are valid; pure_identity_unique shows the specified URN is unique.

**C38 Translation never crashes** (partial). MTdtCore; every index and every Repeat count accounted for.
Theorems: `C38_translate_crashes_exactly`, `C38_translate_never_crashes_refuted`.
Result: Violated by the code: C38_translate_never_crashes_refuted. C38_translate_crashes_exactly gives the exact set of crashing inputs: empty identifier, or a 96-bit tag one of whose fields has more digits than its table row. The ISO branch never crashes.

**C39 Malformed EPCs are rejected** (partial). MTdtCore; classification of all inputs.
Theorems: `C39_wrong_length_rejected_partial`, `C39_unknown_header_accepted`, `C39_reserved_partition_accepted`, `C39_malformed_rejected_refuted`, `C39_outcomes`.
Result: Violated by the code: unknown headers give an empty URN and no error, reserved partition 7 gives a URN without fields and no error (C39_unknown_header_accepted, C39_reserved_partition_accepted, C39_malformed_rejected_refuted). Wrong lengths are rejected (C39_wrong_length_rejected_partial). C39_outcomes classifies every EPC input.

**C40 EPC encode/decode round trip** (proved). MScheme composed with MTdtCore.
Theorems: `C40_round_trip`, `C40_grai_without_asset_type`.
Result: All four schemes, all partitions, every GS1 PC; GRAI with a twelve-digit company prefix both with and without asset type.

**C41 EPC encoders accept exactly the encodable fields** (partial). MScheme; table rows as premises (in_table), other lengths by bit counting.
Theorems: `C41_encodable_partial`, `C41_outside_the_table_partial`, `C41_refuted`.
Result: Exact for the company prefix lengths of the partition table (values below 2^63); refuted for other lengths, where the encoder pads nothing and succeeds exactly when the bits add up to 88 (C41_outside_the_table_partial, C41_refuted).

**C42 ISO 17363/17365 encode/decode round trip** (proved). MScheme and MTdtCore six-bit text; induction over characters.
Theorems: `C42_iso17365`, `C42_iso17363`, `C42_spaces_exact`, `C42_beyond_limits`.
Result: Round trips for both ISO schemes. Beyond the quantifier: C42_spaces_exact says what happens to spaces (they are dropped), C42_beyond_limits shows that a text of 83 characters crashes the encoder's PC computation.

**C43 ISO 6346 check digit** (proved). MTdtIso, MScheme; the weighted sum of the standard (SpecIso).
Theorems: `C43_check_digit`, `C43_single_error`, `C43_wrong_digit`.
Result: Both copies of the check digit function, the refusal of other lengths, and the exact error detection.

**C44 Pattern filters select exactly the tags with the given fields** (proved). MTdtEpc against the fields of the identifier (SpecEpc) through C01.
Theorems: `C44_pattern_filter_exact`, `C44_encoded_tags`, `C44_same_texts`.
Result: On every 12-byte identifier the filter matches exactly the identifiers with the named field values; also as equality of field texts.

**C45 ISO pattern filters select exactly the tags starting with the pattern** (partial). MTdtIso against the six-bit text (SpecIso) through C01.
Theorems: `C45_iso_filter_partial`, `C45_crash_exactly`, `C45_letters_and_digits`, `C45_iso17363_four_fields`, `C45_refuted`.
Result: Exact for 1-4 fields (ISO 17365) and 1-3 fields (ISO 17363). C45_refuted: the full ISO 17363 pattern with check digit is always refused (wrong fields are used for the check digit, C45_iso17363_four_fields), and a pattern longer than the identifier may crash the match: C45_crash_exactly says when (for letters and digits: when the tag's text has 8, 16, ... characters and the pattern goes on after it, C45_letters_and_digits).

**C46 Encoder prefix and pattern filter agree** (partial). MScheme prefix mode against MTdtEpc/MTdtIso.
Theorems: `C46_epc_partial`, `C46_iso17365_partial`, `C46_iso17363_partial`, `C46_refuted`, `C46_empty_filter_partial`, `C46_container_refuted`, `C46_container_exactly_partial`.
Result: Agreement for all schemes and all non-empty filter values / designators (fields upper case without separators), ISO 17363 up to three fields. C46_refuted: with an empty filter value each side draws random bits. C46_empty_filter_partial is exact: GIAI agrees (its encoder writes the drawn value into the pattern), the other schemes agree exactly when the two draws agree. C46_container_refuted: every complete ISO 17363 pattern with a three-letter owner becomes the match-all filter. C46_container_exactly_partial: with a serial number the two sides agree only for a two-letter owner code and an accidentally right check digit.

**C47 End to end reporting** (partial). C07, C40, C44 composed: pattern fields to reported URIs.
Theorems: `C47_end_to_end_partial`, `C47_shared_patterns`, `C47_exactly_partial`, `C47_refuted`.
Result: All four EPC schemes. Exact when no two subscribers write the same pattern; refuted otherwise (C47_refuted), where C47_shared_patterns says what still holds. C47_exactly_partial is the exact boundary tag by tag: right in every iteration order exactly when each subscriber asking for the tag has a pattern for it that nobody else wrote.

**C48 Engine factory activation** (proved). MFactory: transition system of all goroutines of factory, generators, monitors and main; invariant over every interleaving.
Theorems: `C48_stays_active`, `C48_becomes_active`, `C48_engine_generated`, `C48_selected_generated`, `C48_no_crash`, `C48_can_become_active`.
Result: For any four engines and any channel capacity. Liveness as reachability: once a generator has been initialised the goroutines' own steps can make the factory active.

**C49 Deployment priority** (proved). MFactory; invariant on the deploy step.
Theorems: `C49_best_announced`, `C49_best_generated`, `C49_any_interleaving`.
Result: Exact: selected iff it has the highest priority among the announced, as long as no throughput has been recorded. C49_any_interleaving says the same of the model that takes the selection access by access (MSelect).

**C50 Performance driven selection** (proved). MFactory; invariant on the selection step.
Theorems: `C50_tick_selects_fastest`, `C50_tick_any`, `C50_tick_exact`, `C50_reported`.
Result: Throughputs are compared as float64 values. C50_tick_any covers throughputs recorded while the ticker walks the table. C50_tick_exact compares the exact fractions, for counts below 2^53: an engine faster than the selected one has the same float64 throughput.

**C51 Run-time subscription management** (partial). MFactory; the management messages reach no engine.
Theorems: `C51_refuted`, `C51_messages_ignored`.
Result: Violated: the messages are discarded (C51_refuted); C51_messages_ignored is the exact behaviour.

**C52 Engine generator life cycle** (partial). MGenerator (looplab/fsm assumption) and MFactory.
Theorems: `C52_moves`, `C52_events`, `C52_ready_has_engine_partial`, `C52_ready_has_engine_in_factory`, `C52_refuted`, `C52_settles`, `C52_no_deadlock`.
Result: Moves and rejection are proved in full; ready implies engine is proved for every run of the factory and for every run in which nobody else fires the first deploy, and refuted otherwise.

**C53 Traffic statistics** (partial). MFactory; conservation of counts over every interleaving.
Theorems: `C53_published_events`, `C53_events_sum`, `C53_published_matches_partial`, `C53_refuted`, `C53_matches_account_partial`, `C53_matches_sum_partial`.
Result: Event counts are proved in full. Matched counts are refuted (lost and doubled by the race between monitor and search) and proved for runs without that overlap. For every interleaving the account is exact: found + come back = published + lost + pending, with at most one match lost per firing of the monitor, and the sums agree exactly when as many were lost as came back.

**C54 Each statistics point is written once** (partial). MStat; the batch as a growing list.
Theorems: `C54_sent_exact`, `C54_times_sent`, `C54_content`, `C54_each_kept_partial`, `C54_refuted`.
Result: Violated as stated (C54_refuted): the whole batch is sent again with every new point; C54_sent_exact and C54_times_sent say exactly how often. C54_content and C54_each_kept_partial: the database still ends up with exactly one complete record per statistic when points differ in measurement, engine or nanosecond (the database overwrites equal keys: assumption on InfluxDB, in SpecStat).

**C55 LLRP framing** (proved). MMain; a byte stream cut into arbitrary reads.
Theorems: `C55_framing`, `C55_pieces`, `C55_sound`, `C55_unknown_header`, `C55_short_length`.
Result: C55_framing (any segmentation, incomplete tail allowed), C55_sound (messages handled are what the stream begins with), C55_pieces, C55_unknown_header. C55_short_length: a length field below 10, which is no LLRP message, wraps to almost 4 GiB and swallows the stream.

**C56 Report aggregation** (partial). MMain; fold over the answers of a batch.
Theorems: `C56_exact`, `C56_report_partial`, `C56_refuted`.
Result: C56_exact: the report of every destination for every batch, always. Violated as stated (C56_refuted): a destination an answer names twice gets the identity twice; C56_report_partial: exactly the matched events where answers name a destination at most once. Main then discards the reports (main.go:241-243).

**C57 Truncated saved data is rejected** (partial). MGob; every proper prefix of the token list.
Theorems: `C57_list`, `C57_trees`, `C57_subscriptions`, `C57_legacy_refuted`, `C57_legacy_exactly_partial`.
Result: Proved for List, PatriciaTrie, SplayTree and Subscriptions. False for the Legacy engine (C57_legacy_refuted): it counts with the wrong loop bound; C57_legacy_exactly_partial says which cuts it notices: with n addresses exactly those within the first 2 + n(n+2) values, any later cut changes nothing.

**C58 Partial subscription save/restore** (proved). MGob; induction over nested subscriptions.
Theorems: `C58_partial_subscription_round_trip`, `C58_cut_off`, `C58_damaged_entry`.
Result: For every nesting; maps are restored from any writing order.

**C59 An engine refuses data of another engine type** (proved). MGob; first token.
Theorems: `C59_foreign_data_rejected`, `C59_any_other_data`.
Result: All twelve pairs, and any data with another first value.

**C60 Answers do not depend on the selected engine** (partial). MSystem: MFactory instantiated with the four engines; C16, C18 transported along the invariant of PSystem.
Theorems: `C60_own_answer`, `C60_list_answers`, `C60_patricia_answers`, `C60_splay_answers`, `C60_exactly_partial`, `C60_no_crash_partial`, `C60_answers_partial`, `C60_legacy_answers_partial`, `C60_selection_invisible_partial`, `C60_refuted`.
Result: Every answer in every run, for any subscriptions, is what the engine of that time gives by itself (C60_own_answer, and one theorem per engine). The same URIs whatever the engine: proved for subscriptions inside the limits of all engines (fit); refuted for a single subscription, which the Patricia trie loses. C60_exactly_partial: for subscriptions of distinct URIs that share no prefix the limits are exact (outside them some interleaving gives a wrong answer). The text engine answers by its own rule.

**C61 End to end through the factory** (partial). C60 with C40 and C44.
Theorems: `C61_exactly_partial`, `C61_legacy_refuted`, `C61_end_to_end_partial`, `C61_legacy_partial`.
Result: Proved for pattern sets inside the limits (epc_fit), for the three byte engines. C61_exactly_partial: when each subscriber has one pattern these limits are exact (outside them some run answers wrongly). The text engine's answers are characterised exactly (C61_legacy_partial); it tells every subscriber who does not list all eight filter values of tags they did not ask for (C61_legacy_refuted).

**C62 Published counts reach main** (proved). MFactory; accounting of channel contents.
Theorems: `C62_counts_reach_main`, `C62_counts_all_received`, `C62_order_refuted`, `C62_in_order_partial`.
Result: Exactly once, as multisets; C62_order_refuted shows that the order may change, C62_in_order_partial that it does not when the listener leaves the counts in the channel to main.

**C63 Searches can always complete** (proved). MFactory; progress: from each reachable state a search can be completed by its own steps and those of the monitors.
Theorems: `C63_search_completes`.
Result: As reachability by the goroutines' own steps, from every reachable state.

**C64 The recorded throughput is the latest** (partial). MFactory; history of measured values.
Theorems: `C64_recorded_measured_partial`, `C64_refuted`, `C64_latest_partial`.
Result: Violated: the listener may take an older throughput out of the channel to main and record it again (C64_refuted). What is recorded was measured, and it is the last report if the listener leaves the throughputs in the channel to main (C64_latest_partial).

**C65 Main is told of every selection** (partial). MFactory; history of announcements.
Theorems: `C65_selection_sound_partial`, `C65_refuted`, `C65_told_partial`, `C65_up_to_date_partial`.
Result: Violated: the listener may take the SelectedEngine message out of the channel to main (C65_refuted). What main is told is sound, and main is told of every change if the listener leaves that message in the channel (C65_told_partial, C65_up_to_date_partial).

**C66 Statistics never stop the program** (partial). MStat with MFactory's measured throughputs.
Theorems: `C66_recordable_partial`, `C66_fatal`, `C66_no_crash_partial`, `C66_exactly_partial`, `C66_refuted`.
Result: Violated (C66_refuted, C66_fatal): an interval in which all searches took under a microsecond gives the throughput +Inf, which the client refuses, and log.Fatal ends the program. C66_no_crash_partial: in every interleaving in which each search takes at least one microsecond and no counter overflows, every statistic that reaches main is stored. C66_exactly_partial: in any interleaving (counters below 2^63) the program ends exactly when a throughput measured over no time reaches main.

**C67 The engine series tells the selected engine** (partial). MStat; names and numbers.
Theorems: `C67_named_partial`, `C67_moment`, `C67_engine_number_partial`, `C67_refuted`.
Result: C67_engine_number_partial: the four names have four numbers. Violated (C67_refuted): a tick before the first announcement sends the empty name, recorded as 0, the number of the Legacy engine. If the ticks come after the first announcement, every recorded number is that of a generated engine (C67_named_partial). C67_moment: in every interleaving the number is that of the engine selected at some moment before, or 0 if none was.

**C68 LLRP replies** (partial). MMain; replies per complete message.
Theorems: `C68_replies_partial`, `C68_only_replies`, `C68_refuted`, `C68_exactly_partial`.
Result: C68_replies_partial, C68_only_replies: the replies and their order, for any stream and segmentation. Violated for the message id (C68_refuted): it is always 0, the flag being read before it is parsed. C68_exactly_partial: as claimed if and only if the configured id is zero or no message calls for a reply.

**C69 From the wire to the reports** (partial). MMain, MSystem and the encoders composed.
Theorems: `C69_answers_in_order`, `C69_wire_to_reports_partial`.
Result: C69_wire_to_reports_partial: for EPC patterns within the engines' limits (epc_fit), destinations none of whose patterns covers another, and answers not given by the Legacy engine (whose filter values are ignored, C18). The decoder of reports is a parameter (library).

**C70 Tags and prefixes as text** (partial). MScheme.make_epc/make_iso, MTools readers.
Theorems: `C70_epc`, `C70_epc_error_dropped`, `C70_epc_prefix`, `C70_iso17365`, `C70_iso17363`, `C70_iso_prefix`, `C70_refuted`.
Result: C70_epc, C70_epc_prefix, C70_iso17365, C70_iso17363, C70_iso_prefix: for every valid set of fields. Violated for fields that fit no tag (C70_refuted, exact in C70_epc_error_dropped): no error is reported, the identifier is the empty string.

**C71 Reading tag texts** (partial). MTools; text readers against SpecTools.
Theorems: `C71_bytes`, `C71_pc`, `C71_refuted`.
Result: C71_pc: exact. C71_bytes: exact on identifiers, and any other text gives the empty identifier. Violated (C71_refuted): makeByteID returns nil in place of the error.

**C72 Generated data sets** (partial). MTools.gendataset with arbitrary draws.
Theorems: `C72_tag_and_filters_partial`, `C72_run_partial`, `C72_clash`, `C72_refuted`.
Result: C72_tag_and_filters_partial, C72_run_partial: for GIAI references that fit their bits and no GRAI file drawn twice. Violated otherwise (C72_refuted): a GIAI reference drawn too large gives an empty line, and a GRAI file drawn twice ends the program (always: C72_clash).

**C73 The text of a filter identifies it** (proved). MDump, MFilter.fo_to_string; cutting a text at its last bracket.
Theorems: `C73_filter_text`, `C73_filter_text_identifies`.
Result: C73_filter_text: exact text; C73_filter_text_identifies for arbitrary characters.

**C74 Dump shows the whole engine** (partial). MDump; an indented text determines its tree (outline), and every history keeps the tree printable.
Theorems: `C74_list`, `C74_patricia`, `C74_splay_partial`, `C74_refuted`, `C74_exactly_partial`, `C74_legacy`.
Result: C74_list, C74_patricia, C74_legacy in full (histories unrestricted); C74_splay_partial for trees that had a subscription at the start. Violated otherwise (C74_refuted): Dump of a splay tree without subscriptions dereferences a nil filter. %q is modelled exactly for bytes below 127 only. C74_exactly_partial: that is the only case, after any history.

**C75 Dump shows the whole nested subscriptions** (proved). MDump; same outline argument, nested induction.
Theorems: `C75_byte_subscriptions`, `C75_converted`.
Result: C75_byte_subscriptions for any nesting; C75_converted for the result of ToByteSubscriptions.

**C76 The common prefix that is found is really shared** (partial). MEngine, MGroup; induction on the length of the strings, groups of the tails.
Theorems: `C76_first_group`, `C76_shared`, `C76_majority_refuted`, `C76_exactly_partial`.
Result: C76_first_group: the exact answer on every list (the first group in dictionary order, or none exists); C76_shared. Violated: the prefix is not the one the majority shares (C76_majority_refuted). C76_exactly_partial says on which lists it is.

**C77 Grouping subscriptions by common prefix loses nothing** (partial). MGroup; loop invariant (a grouped key is extended by no other key and starts no further group), then the linking theorem of C29.
Theorems: `C77_grouping`, `C77_grouping_subs`, `C77_nesting_refuted`, `C77_exactly_partial`, `C77_nested_refuted`.
Result: C77_grouping: total, lossless, nothing but URI-less group nodes added, offsets and nesting consistent, no group left; C77_grouping_subs for converted subscriptions. Violated: an extension of another subscription's prefix may stay beside it (C77_nesting_refuted). C77_exactly_partial says for which maps this does not happen.

**C78 The comparison of engines' trees means equality** (partial). MHelpers; structural induction.
Theorems: `C78_patricia_partial`, `C78_splay_partial`, `C78_both_ways`, `C78_equal_refuted`.
Result: C78_patricia_partial, C78_splay_partial: true exactly when the wanted tree is contained in the other; C78_both_ways. Violated as equality (C78_equal_refuted): superfluous nodes go unnoticed.

**C79 Six-bit text can be read back** (proved). MScheme, MTdtIso, MHelpers; injectivity by a finite check per character.
Theorems: `C79_six_bit_text`, `C79_six_bit_readable`, `C79_lower_case_refuted`, `C79_padding`, `C79_in_slice`.
Result: C79_six_bit_text, C79_six_bit_readable (characters 32 to 95), C79_padding, C79_in_slice. Outside that alphabet texts collide (C79_lower_case_refuted).

**C80 The six-bit tool answers every command line** (partial). MHelpers; direct.
Theorems: `C80_tool_partial`, `C80_no_argument_refuted`.
Result: C80_tool_partial for every argument. Violated without an argument (C80_no_argument_refuted): the test of the argument count is off by one and the tool crashes.

**C81 A subscription file is read as it was written** (proved). MCsv (the reader as a character machine), SpecCsv (the format as a grammar); both directions by induction.
Theorems: `C81_reads_the_format`, `C81_load`, `C81_unambiguous`, `C81_round_trip`, `C81_no_address`.
Result: Go 1.23's encoding/csv is modelled as a character machine and proved equal to a grammar of the format. Opening and reading the file can fail in other ways that are not modelled.

**C82 A malformed line does not disturb the others** (partial). MCsv; induction over the text.
Theorems: `C82_no_quotes_partial`, `C82_bad_line_refuted`.
Result: False: a quote inside an unquoted field crashes the program whatever the other lines are (C82_bad_line_refuted). True for files without quotes.

**C83 From the file to the report** (partial). Composition of C81, C30, C27 and C07.
Theorems: `C83_file_to_answers_partial`, `C83_exactly_partial`, `C83_refuted`.
Result: Proved when no prefix is asked for by two addresses; false otherwise (C83_refuted). C83_exactly_partial is the exact boundary for every file and tag: right in every iteration order exactly when each address that asks for the tag has a matching prefix that nobody else asks for.

**C84 A pattern accepted by the loader is honoured in any letter case** (partial). MSubs.pattern_prefix; counting colons.
Theorems: `C84_capitals_ignored_refuted`, `C84_values_partial`, `C84_type_refuted`, `C84_exactly_partial`.
Result: False: a pattern with a capital letter in 'urn:epc:pat:' is loaded and then ignored (C84_capitals_ignored_refuted), one with a capital letter in the name of its scheme matches every tag (C84_type_refuted). Proved for the values (C84_values_partial); C84_exactly_partial is the exact rule for the names.

**C85 Every generated filter ends up in the filter file** (partial). MDataset.dstep: labelled transitions of main, workers and writer; invariant of the lines sent, held and written.
Theorems: `C85_any_time`, `C85_filters_partial`, `C85_exactly_partial`, `C85_refuted`.
Result: False for the last filter: main does not wait for the writer, so one filter may be lost (C85_refuted). Proved: at any time all sent filters but at most the last are in the file, in order, and at the end all filters of all sets made were sent. C85_exactly_partial: the file is complete if and only if the writer holds no filter.

**C86 The data set generator always finishes** (proved). MDataset; a measure that falls in every step, and progress in every reachable state.
Theorems: `C86_runs_end`, `C86_no_deadlock`, `C86_completes`.
Result: For any number of workers and any capacity, both at least one.

**C87 Every parameter gets its own complete tag file** (partial). MDataset with files, os.Stat, os.Create and partial writes; composed with C72.
Theorems: `C87_never_fatal`, `C87_files_partial`, `C87_refuted_twice`, `C87_refuted_mixed`, `C87_refuted_fatal`, `C87_exactly_partial`.
Result: Proved when no two parameters share a file and no file was there before. Otherwise filters may be sent twice, files may be mixed and the program may stop (C87_refuted_twice, C87_refuted_mixed, C87_refuted_fatal). C87_exactly_partial: these limits are exact, for any number of workers.

**C88 The data set has as many filters as asked for** (partial). MDataset.main_params, match_repeat and mismatch_repeat with SpecFloat; relative rounding errors of the three operations (Flocq, PFloat4); counting.
Theorems: `C88_refuted_rounding`, `C88_lines`, `C88_different`, `C88_rounds_partial`.
Result: False: the number of rounds may be one less by rounding (C88_refuted_rounding), and each round sends 31 filters. Proved: for up to 2^40 subscriptions both numbers of rounds are the requested shares rounded down, or one less, the latter only when the share is a whole number of rounds (C88_rounds_partial); exactly 31 filters for each round, at most 20 different ones for each round and one more.

**C89 Tags of the sets without filters match no filter** (partial). MDataset.round_params; exact criterion for a filter line to match a tag.
Theorems: `C89_selection_partial`, `C89_refuted`.
Result: False for 17365 whenever both kinds of rounds occur (C89_refuted); the exact condition for a match is proved for all schemes.

**C90 Where a generated set of tags goes** (proved). MTools.file_of; joining with slashes is injective on texts without slashes.
Theorems: `C90_path`, `C90_own_file`, `C90_no_nesting`.
Result: For the parameters main makes; the digits and letters of the names are as drawn.

**C91 The recorded matching probability is a percentage** (partial). MStat.percent on IEEE floats; invariants of the factory runs (matches counted against events); rounding with Flocq.
Theorems: `C91_percentage`, `C91_hundred`, `C91_recorded_partial`, `C91_exactly_partial`, `C91_refuted`.
Result: C91_percentage, C91_hundred: the formula, for all 64-bit counts. C91_recorded_partial: in every interleaving in which no search is being counted while its monitor publishes. Violated otherwise (C91_refuted: 200). C91_exactly_partial: in every interleaving (counts below 2^53) a recorded value is never negative, and a percentage exactly when not more matches than events were published.

**C92 Restoring replaces what the engine held** (partial). MRestore: decoding as a function of the tree that is there; the overlay of two trees by induction; equality with MGob on an empty engine for all data.
Theorems: `C92_fresh`, `C92_other_data`, `C92_patricia_exactly_partial`, `C92_splay_exactly_partial`, `C92_same_tree_partial`, `C92_list_exactly_partial`, `C92_subscriptions_exactly_partial`, `C92_patricia_refuted`, `C92_splay_refuted`.
Result: Violated for every engine (C92_patricia_refuted, C92_splay_refuted: answers change without an error; lists are appended to, the text engine keeps what it had, C24_nothing_stored). For each engine the exact condition under which it holds is proved (C92_*_exactly_partial); on a fresh engine it is C21-C25 (C92_fresh).

**C93 A subscription stands for a string of bits** (partial). Every encoder of a field yields binary digits unless the field is signed; by cases over the six types; the filter of any other text is empty and passes everything.
Theorems: `C93_bits_partial`, `C93_subscriptions_partial`, `C93_list_search_partial`, `C93_negative_refuted`, `C93_exactly_partial`.
Result: Proved for every pattern without a minus sign in front of a field, whatever else it is (C93_bits_partial), and with it the list engine's exactness for all such subscriptions and histories (C93_list_search_partial). Violated by negative filter values (C93_negative_refuted): such a subscriber is told of every tag. C93_exactly_partial: bits exactly when the filter value of the (EPC) pattern does not read as a negative number.

**C94 A change of the selected engine never crashes a search** (partial). MWord: a string as an address and a length, each accessed in one step; which loads give a name (no name is a prefix of another); schedules for the violations; an invariant over all interleavings for names of one length.
Theorems: `C94_loaded`, `C94_switch_refuted`, `C94_for_good_refuted`, `C94_first_partial`, `C94_first_refuted`, `C94_same_length_partial`, `C94_no_other_engine_partial`, `C94_quiet_partial`.
Result: Violated: for any two engines whose names differ in length a search can combine the address of one with the length of the other, find no engine and crash (C94_switch_refuted), the listener and the ticker together can leave such a string behind for good (C94_for_good_refuted), and so can the first selection if the length is stored first (C94_first_refuted). C94_loaded is the exact outcome for every pair of words. Proved: a search is never answered by an engine that was neither selected nor being assigned (C94_no_other_engine_partial), names of equal length are safe under any number of concurrent assignments (C94_same_length_partial), so is a first selection that stores the address first (C94_first_partial), and so is a search with no assignment under way (C94_quiet_partial).

**C95 A search compares few filters** (proved). Searches that also count the calls of Match (MEffort), shown equal to the searches; induction over the trees; for the fresh trie each compared node is charged to a subscription off the path.
Theorems: `C95_counted`, `C95_list`, `C95_patricia`, `C95_patricia_fresh`, `C95_splay`, `C95_splay_subscriptions`.
Result: Proved for all engines with filters; the counting searches are shown to be the modelled searches (C95_counted).

**C96 The splay tree adapts to the tags that come** (partial). A search is a move-to-front step on the outer chain; amortised analysis with the number of inverted pairs as potential.
Theorems: `C96_adapts_partial`, `C96_adapts_refuted`, `C96_again_partial`, `C96_again_refuted`.
Result: Proved where searches leave the subscriptions alone (each prefix has one chain of extensions, the exact limit of C13). With several incomparable extensions of a prefix both claims are false: the number of comparisons exceeds the bound by any amount (C96_adapts_refuted), and a tag searched again may cost more than its URIs and one (C96_again_refuted).

**C97 A selection is told as made, and an announcement only replaces a lesser engine** (partial). MSelect: one access to the name per step of the listener or the ticker. Invariants over all interleavings for which names can appear, what a decision rests on and which message is still owed; schedules for the three violations; lemmas that an undisturbed announcement or tick is the single step of MFactory.
Theorems: `C97_names`, `C97_selected`, `C97_apart_partial`, `C97_better_partial`, `C97_message_partial`, `C97_answered`, `C97_tick`, `C97_announced`, `C97_better_refuted`, `C97_told_refuted`, `C97_last_refuted`.
Result: Each of the three claims is refuted by a schedule (C97_better_refuted, C97_told_refuted, C97_last_refuted). They hold when the listener and the ticker are never both at work (C97_apart_partial). For all interleavings: a lesser engine is only put in place right after the ticker's change (C97_better_partial), a party's message names its own change or a later one of the other party (C97_message_partial), every change is followed by a message of the party that made it (C97_answered), only proposed engines are ever selected or told (C97_names), the name is never lost (C97_selected), an undisturbed tick sets things right (C97_tick), and an undisturbed announcement selects and tells the engine exactly if none or a lesser one was selected (C97_announced).

**C98 Tag reports are worked off completely and in order, and replies do not wait for them** (partial). MPipe: the receive loop and the searching goroutine with the unbuffered channel between them, on top of MMain's reading of messages. An invariant that accounts for every message and event; a measure for termination.
Theorems: `C98_in_order`, `C98_at_the_end_partial`, `C98_complete_partial`, `C98_waits_partial`, `C98_goes_on`, `C98_refuted`, `C98_waits_refuted`.
Result: Violated twice: the end of the connection ends the program in the middle of a report (C98_refuted), and a keepalive behind two reports waits for the first one's searches (C98_waits_refuted). C98_in_order: order and account at any moment. C98_at_the_end_partial: all replies are written and only events of the last report can be missing; C98_complete_partial: exactly when nothing is missing. C98_waits_partial: the loop waits exactly when two reports more have come than have been worked off. C98_goes_on: no deadlock, and a bound on the number of steps.

**C99 A main program that is held up does not hold up the searches** (partial). MFactory; messages on their way are counted (SpecJam); a search is finished by its own goroutines as long as no more than the channel's capacity plus one are; a jam is an invariant of every step but main's receiving.
Theorems: `C99_without_main_partial`, `C99_pending`, `C99_bounded_partial`, `C99_stuck`, `C99_refuted`.
Result: Violated when main stalls: with capacity + 2 messages waiting, a search can be stuck until main receives (C99_refuted, C99_stuck). Up to capacity + 1 messages every search is answered without main (C99_without_main_partial), in particular if no more were made than that (C99_bounded_partial).
<!-- end properties -->

## 4. Defects found in the code

Each is a theorem of section 3 unless marked (read).

* Patricia trie: the subscription whose prefix is the common prefix of all is lost, so a single subscription is never reported, and
  this engine has the highest priority (C09, C60).  Adding a prefix above an existing one loses both (C10).
  patricia_trie.go:174 tests `hasOne` where it means `hasZero`, so saved tries lose branches (C22).
* Splay tree: crashes on Search and Dump without subscriptions (C12, C74).  A second search of the same tag can lose a URI (C13).
  A prefix added above a subscribed extension is not reported (C14).  Some deletions leave an empty URI (C15).
* Legacy engine: filter values are ignored and unknown types compare raw text (C17, C18).  Add can store a pattern twice and share
  the caller's array (C19).  Delete with two patterns of one URI goes wrong (C20).  A restored engine is empty, sometimes
  silently (C24, C57).
* Restoring into an engine in use mixes old and new: lists grow, the text engine keeps what it had, and in both trees fields of the
  old filters show through where the saved field is zero, without an error (C92).
* Conversion: a rejected pattern of the shape type:fields becomes the empty prefix and catches every tag (C28).
  A pattern with a negative filter value catches every tag (C93).  A search that meets a change of the selected engine half way
  looks for an engine that does not exist and crashes (C94).  Two URIs with one prefix overwrite each other, the last one wins (C27).  A stray quote in the subscription file crashes the program
  (C82).  A pattern with capital letters in its scheme is loaded and ignored (C84).
* Composition: children are keyed by pattern text, and filters that only touch are composed (C32).
* Translation: crashes on an empty identifier or a field too large for its row (C38); unknown headers and partition 7 pass (C39).
* Encoders: company prefixes of the wrong length are accepted when the bits add up to 88 (C41).  The full ISO 17363 pattern is always
  refused, tdt/iso.go:82 (C45).  A text above 82 characters crashes the PC computation (C42).  MakeEPC drops errors (C70).
* Factory: subscription messages are ignored (C51).  An external deploy makes a generator ready without an engine (C52).
  Matched counts are lost or doubled (C53), arrive out of order (C62); stale throughputs are recorded again (C64); the listener
  swallows SelectedEngine messages meant for main (C65).
* Statistics: the whole batch is sent again with every point (C54).  A throughput of +Inf ends the program (C66).
  "No engine" is recorded as the Legacy engine (C67).  A matching probability of 200 can be recorded, since a search is counted as a
  match before it is counted as an event (C91).
* Main: an LLRP length below 10 wraps (C55).  The message id flag has no effect (C68).  A destination can get one identity twice
  (C56).  Reports are built and then discarded, main.go:241 (read).
* Tools: makeByteID swallows errors (C71).  The data set generator writes empty lines and dies on a file drawn twice (C72).
  Its filters.csv has the pattern first, so loading it as subscriptions gives none (C81_no_address).
* Uncalled code: findPartialLCP does not find the majority prefix, makePatriciaSubset loses an earlier Subset, the test
  helpers `equal` are not symmetric (C76-C78).

## 5. Not modelled

* cmd/ale-ec/main.go (an SPDY listener that hands every stream to a library handler), command-line parsing.
* `PrintGoBytes` of scheme/generate.go (its text comes from a library that is not in the repository), `timeTrack`, the empty `LoadEPCTagDataTranslation`.
* The lookup tables tdt/di.go and tdt/afi.go, which no code reads.
* Logging, wall-clock time, sockets and files beyond their bytes, gob's byte format,
  the LLRP report decoder (a parameter of C69), data races in the sense of the Go memory model
  (words that are seen in an order other than that of the accesses; tearing of the selected name is in C94).

## 6. Trusted base

* Coq's kernel (8.16.1).
* `Print Assumptions` below every property theorem but ten prints "Closed under the global context": no axiom is used, not even one
  of the standard library.  The ten are `C88_rounds_partial` (`PropsRounds.v`), `C50_tick_exact` and `C50_reported` (`PropsThroughput.v`), `C66_recordable_partial`,
  `C66_no_crash_partial` and `C66_exactly_partial` (`PropsStat.v`), `C91_percentage`, `C91_hundred`, `C91_recorded_partial` and `C91_exactly_partial` (`PropsPercent.v`), which use Flocq's
  theorems about rounding and with them the axioms of the standard library's real numbers: `ClassicalDedekindReals.sig_not_dec`,
  `ClassicalDedekindReals.sig_forall_dec`, `FunctionalExtensionality.functional_extensionality_dep` and `Classical_Prop.classic`.
  Loading the standard library's `ssreflect`-related modules brings seven `Coq.ssr.ssrunder.Under_rel.*`
  constants into `coqchk`'s list; no theorem depends on them.
* The reading of the Go source recorded in the citations, with the simplifications of section 2.
* Assumed of libraries: go-llrp/binutil as written in `BinUtil.v` (bit parsing, six-bit text, packing); encoding/gob reads back single
  values as written and consumes one message per Decode (`MGob.v`), and does not send zero fields (`MRestore.v`); looplab/fsm v1.0.2 sets the state and then runs callbacks
  (`MGenerator.v`); influxdb1-client/v2 refuses points without fields or with infinite floats, and the database keeps one set of
  fields per measurement, tag set and time (`MStat.v`); encoding/csv of Go 1.23 as written in `MCsv.v`;
  float64 arithmetic of test/gendataset.go and of the throughputs as the standard library's `SpecFloat` (IEEE 754 rounding to nearest even); the files of
  test/gendataset.go as texts that os.Create empties and each flush extends at the writer's offset (`MDataset.v`); sort,
  strings, strconv, math/big and io as documented.
* The theorems were tested against edited models (`seeded/LOG.jsonl`).
