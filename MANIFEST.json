{
 "claims": [
  {
   "property": "C01",
   "status": "proved",
   "theorems": [
    "C01_match_exact",
    "C01_only_covered_bits"
   ],
   "note": "All patterns over {0,1,x}, offsets and identifiers that cover the filter's bytes."
  },
  {
   "property": "C02",
   "status": "proved",
   "theorems": [
    "C02_short_id"
   ],
   "note": ""
  },
  {
   "property": "C03",
   "status": "proved",
   "theorems": [
    "C03_transparent"
   ],
   "note": ""
  },
  {
   "property": "C04",
   "status": "proved",
   "theorems": [
    "C04_has_byte_at",
    "C04_get_byte_at",
    "C04_get_byte_at_negative"
   ],
   "note": ""
  },
  {
   "property": "C05",
   "status": "proved",
   "theorems": [
    "C05_lcp",
    "C05_lcp_empty"
   ],
   "note": ""
  },
  {
   "property": "C06",
   "status": "proved",
   "theorems": [
    "C06_get_next_bit"
   ],
   "note": ""
  },
  {
   "property": "C07",
   "status": "proved",
   "theorems": [
    "C07_list_search",
    "C07_list_fresh",
    "C07_list_search_short"
   ],
   "note": "Every history of add/delete calls; prefixes over {0,1}; identifiers too short to decide a prefix make Search crash (C07_list_search_short)."
  },
  {
   "property": "C08",
   "status": "proved",
   "theorems": [
    "C08_own_draws",
    "C08_list_set",
    "C08_list_order",
    "C08_list_add_idempotent",
    "C08_list_delete_absent"
   ],
   "note": "C08_own_draws: the same with random bits drawn anew in every call, for any patterns."
  },
  {
   "property": "C09",
   "status": "partial",
   "theorems": [
    "C09_patricia_exact",
    "C09_patricia_search_partial",
    "C09_exactly_partial",
    "C09_single_refuted",
    "C09_refuted"
   ],
   "note": "False in general: the subscription whose prefix is the common prefix of all is never reported (C09_refuted, C09_single_refuted). C09_patricia_exact gives the exact behaviour for every subscription set; C09_exactly_partial shows that the property holds for a subscription set exactly when the common prefix is not subscribed."
  },
  {
   "property": "C10",
   "status": "partial",
   "theorems": [
    "C10_patricia_history_partial",
    "C10_patricia_add_partial",
    "C10_refuted",
    "C10_careful_history_partial",
    "C10_misplaced_refuted",
    "C10_places_partial",
    "C10_add_exactly_partial",
    "C10_exactly_partial"
   ],
   "note": "False in general: C10_misplaced_refuted shows that the first badly placed addition (no node at the prefix, but a node below it) always loses the new subscription; C10_careful_history_partial is the property for every history of well placed changes, from any starting subscriptions; C10_patricia_history_partial gives a condition on the history alone (top_down). The boundary told from the prefixes alone, without the trie (SpecPlaces: the places are where subscribed prefixes part): C10_places_partial, and exactly for one more subscription (C10_add_exactly_partial) and for whole histories of single updates (C10_exactly_partial)."
  },
  {
   "property": "C11",
   "status": "partial",
   "theorems": [
    "C11_patricia_delete_partial",
    "C11_refuted",
    "C11_misplaced_refuted",
    "C11_delete_exactly_partial"
   ],
   "note": "False exactly when the prefix to remove is subscribed and has the only node of the trie (C11_misplaced_refuted, C11_refuted). Proved otherwise: C10_careful_history_partial covers deletions in every well placed history, C11_patricia_delete_partial every top-down history. C11_delete_exactly_partial: after a well placed history a removal is answered rightly if and only if the prefix does not have the only place (SpecPlaces)."
  },
  {
   "property": "C12",
   "status": "partial",
   "theorems": [
    "C12_splay_first_search_partial",
    "C12_refuted",
    "C12_exactly_partial"
   ],
   "note": "Proved for every non-empty subscription set; an engine without subscriptions crashes on every search (C12_refuted). C12_exactly_partial: the first searches are right if and only if something is subscribed."
  },
  {
   "property": "C13",
   "status": "partial",
   "theorems": [
    "C13_splay_search_history_partial",
    "C13_refuted",
    "C13_exactly_partial",
    "C13_fork_refuted"
   ],
   "note": "Proved for every search history when the extensions of each subscribed prefix form a chain, and this condition is exact (C13_exactly_partial): with two incomparable extensions of one prefix some tag loses a URI on its second search (C13_fork_refuted, C13_refuted)."
  },
  {
   "property": "C14",
   "status": "partial",
   "theorems": [
    "C14_add_exactly_partial",
    "C14_exactly_partial",
    "C14_splay_history_partial",
    "C14_splay_add_partial",
    "C14_refuted",
    "C14_new_prefix_partial"
   ],
   "note": "Proved for every calm history of searches, additions and deletions. C14_new_prefix_partial gives the answers after adding any new prefix: exactly the tags with a subscribed extension of it miss it (C14_refuted is an instance). The limits are exact: C14_add_exactly_partial for one more subscription after a calm history, C14_exactly_partial for whole histories of single updates."
  },
  {
   "property": "C15",
   "status": "partial",
   "theorems": [
    "C15_delete_exactly_partial",
    "C15_splay_delete_partial",
    "C15_branches_refuted",
    "C15_only_refuted",
    "C15_refuted",
    "C15_last_refuted"
   ],
   "note": "Proved along calm histories. The excluded deletions always fail: a prefix with several branches above it stays with an empty URI (C15_branches_refuted), the only subscription stays (C15_only_refuted). C15_delete_exactly_partial: after a calm history a removal is answered rightly exactly outside these two cases."
  },
  {
   "property": "C16",
   "status": "partial",
   "theorems": [
    "C16_engines_agree_partial",
    "C16_refuted",
    "C16_exactly_partial"
   ],
   "note": "Proved when the common prefix of all subscriptions is not itself subscribed and (if searches came before) extensions form chains; false in general (C16_refuted), and C16_exactly_partial shows that these two conditions are exactly what agreement needs."
  },
  {
   "property": "C17",
   "status": "proved",
   "theorems": [
    "C17_search",
    "C17_any_order",
    "C17_reported"
   ],
   "note": "Search is characterised for every iteration order (told/selects in SpecLegacy); patterns of unknown types and the first three parts of a pattern are compared/ignored as the code does."
  },
  {
   "property": "C18",
   "status": "partial",
   "theorems": [
    "C18_refuted",
    "C18_legacy_exact",
    "C18_list_within_legacy",
    "C18_agree_partial",
    "C18_exactly_partial",
    "C18_filter_value_refuted"
   ],
   "note": "Refuted in general (filter value ignored, field prefixes, empty GRAI item reference, shared patterns), and for every subscriber who does not list all eight filter values (C18_filter_value_refuted). Proved: exact text selection, list reports are included in legacy reports, and agreement when filter values match and last fields are full. C18_exactly_partial gives the exact boundary tag by tag: the engines agree on a tag in every iteration order exactly when everyone whose text selects it has a pattern of their own that leads to it field by field."
  },
  {
   "property": "C19",
   "status": "partial",
   "theorems": [
    "C19_add_partial",
    "C19_exactly_partial",
    "C19_add_in_memory",
    "C19_refuted",
    "C19_shared_storage"
   ],
   "note": "Adds all, keeps all; nothing twice unless the argument itself repeats a pattern (refuted otherwise). Storage sharing with the caller shown by C19_shared_storage. C19_exactly_partial: how often every pair is stored afterwards; nothing is stored twice if and only if nothing was before and the argument repeats no pair but stored ones."
  },
  {
   "property": "C20",
   "status": "partial",
   "theorems": [
    "C20_delete_partial",
    "C20_exact",
    "C20_exactly_partial",
    "C20_refuted"
   ],
   "note": "Refuted when two stored patterns of one URI go at once; C20_exactly_partial: right if and only if at most one stored pattern per URI is named; C20_exact gives the result of every deletion."
  },
  {
   "property": "C21",
   "status": "proved",
   "theorems": [
    "C21_list_round_trip",
    "C21_other_type_rejected"
   ],
   "note": "Over the sequence of encoded values; encoding/gob is assumed to read back single values as written."
  },
  {
   "property": "C22",
   "status": "partial",
   "theorems": [
    "C22_full_partial",
    "C22_exact",
    "C22_same_iff",
    "C22_read_exact",
    "C22_refuted"
   ],
   "note": "Proved for tries in which every node has both children or none; C22_exact says what happens to every other trie and C22_same_iff when the trie comes back whole. False in general (C22_refuted): patricia_trie.go:174 tests hasOne instead of hasZero, so a zero branch without a one branch is dropped without an error, and a one branch alone makes a spurious error. C22_read_exact says the same of what is restored, read as a trie."
  },
  {
   "property": "C23",
   "status": "proved",
   "theorems": [
    "C23_splay_round_trip",
    "C23_faithful",
    "C23_read",
    "C23_built_trees"
   ],
   "note": "Into an engine whose root is nil. Encoding a nil root panics in gob; NewSplayTree never leaves it nil."
  },
  {
   "property": "C24",
   "status": "partial",
   "theorems": [
    "C24_refuted",
    "C24_nothing_stored",
    "C24_empty_partial",
    "C24_silent_exactly",
    "C24_silent"
   ],
   "note": "False for every engine with a subscription (C24_refuted): UnmarshalBinary never stores what it reads. Only the empty engine is restored (C24_empty_partial). C24_silent_exactly says when the loss goes without an error; always when each address has as many patterns as there are addresses (C24_silent)."
  },
  {
   "property": "C25",
   "status": "proved",
   "theorems": [
    "C25_round_trip",
    "C25_order_irrelevant",
    "C25_nil_map",
    "C25_clone"
   ],
   "note": "Round trip for every iteration order and receiving map, independence of the bytes from the order, and the clone's separate storage. Restoring into a nil map panics (C25_nil_map)."
  },
  {
   "property": "C26",
   "status": "proved",
   "theorems": [
    "C26_keys_sorted",
    "C26_keys_order_independent",
    "C26_byte_keys"
   ],
   "note": ""
  },
  {
   "property": "C27",
   "status": "partial",
   "theorems": [
    "C27_definite",
    "C27_definite_histories",
    "C27_draws_refuted",
    "C27_conversion_sound",
    "C27_conversion_keeps_prefixes",
    "C27_conversion_partial",
    "C27_refuted_loss",
    "C27_refuted_order",
    "C27_last_wins",
    "C27_exactly"
   ],
   "note": "False when two URIs share a prefix (C27_refuted_loss, C27_refuted_order). The exact boundary is proved: both claims hold exactly when no prefix is asked for by two URIs (C27_exactly), and what is stored is always the last request (C27_last_wins). With random bits drawn anew for every pattern, patterns without empty fields are converted, and whole histories of the engines run, as with one source of random bits (C27_definite, C27_definite_histories); a pattern with an empty field stands for other tags at each conversion, so deleting it need not remove it (C27_draws_refuted)."
  },
  {
   "property": "C28",
   "status": "partial",
   "theorems": [
    "C28_misshapen_ignored_partial",
    "C28_rejected_catches_all_refuted",
    "C28_refuted",
    "C28_catches_all_exactly"
   ],
   "note": "False: a rejected pattern of the shape type:fields becomes the empty prefix and catches every tag (C28_refuted, C28_rejected_catches_all_refuted); C28_catches_all_exactly gives exactly the patterns stored as the empty prefix. Patterns of another shape are ignored (proved)."
  },
  {
   "property": "C29",
   "status": "proved",
   "theorems": [
    "C29_link_subset",
    "C29_link_subset_subs"
   ],
   "note": "For every flat set of prefix subscriptions."
  },
  {
   "property": "C30",
   "status": "proved",
   "theorems": [
    "C30_csv"
   ],
   "note": "From the records encoding/csv returns; C81 gives the reading of the file's text. Lower-casing is ASCII."
  },
  {
   "property": "C31",
   "status": "proved",
   "theorems": [
    "C31_composite_accepts",
    "C31_bits",
    "C31_disjoint",
    "C31_exactly"
   ],
   "note": "For every non-empty list of well-formed filters that share a byte, and every ID. C31_exactly: sharing a byte is also necessary, for otherwise there is no composition or the composite filter crashes on an identifier a member accepts."
  },
  {
   "property": "C32",
   "status": "partial",
   "theorems": [
    "C32_composite_and_child_partial",
    "C32_exactly_partial",
    "C32_refuted"
   ],
   "note": "C32_exactly_partial: true for a list of filters exactly when they share a byte and filters with the same pattern text select the same identifiers (same offset, or no bit at all); C32_composite_and_child_partial: always true for the last filter with its text. Violated otherwise (C32_refuted): the children map is keyed by pattern text, so members with the same text at different offsets overwrite each other; and filters that only touch (one ends where the other begins) have an empty composite filter that crashes."
  },
  {
   "property": "C33",
   "status": "proved",
   "theorems": [
    "C33_groups",
    "C33_nothing",
    "C33_unique"
   ],
   "note": "Characterises the grouping completely: concatenation, consecutive groups, no two neighbours mergeable, and uniqueness. Integers are unbounded in the model."
  },
  {
   "property": "C34",
   "status": "proved",
   "theorems": [
    "C34_sgtin_decode"
   ],
   "note": "For every identifier with the scheme's header whose partition and digits are valid; pure_identity_unique shows the specified URN is unique."
  },
  {
   "property": "C35",
   "status": "proved",
   "theorems": [
    "C35_sscc_decode"
   ],
   "note": "For every identifier with the scheme's header whose partition and digits are valid; pure_identity_unique shows the specified URN is unique."
  },
  {
   "property": "C36",
   "status": "proved",
   "theorems": [
    "C36_grai_decode"
   ],
   "note": "For every identifier with the scheme's header whose partition and digits are valid; pure_identity_unique shows the specified URN is unique. For partition 0 the URN has no asset-type field (the project's own test expects this; the GS1 standard would keep an empty field)."
  },
  {
   "property": "C37",
   "status": "proved",
   "theorems": [
    "C37_giai_decode"
   ],
   "note": "For every identifier with the scheme's header whose partition and digits are valid; pure_identity_unique shows the specified URN is unique."
  },
  {
   "property": "C38",
   "status": "partial",
   "theorems": [
    "C38_translate_crashes_exactly",
    "C38_translate_never_crashes_refuted"
   ],
   "note": "Violated by the code: C38_translate_never_crashes_refuted. C38_translate_crashes_exactly gives the exact set of crashing inputs: empty identifier, or a 96-bit tag one of whose fields has more digits than its table row. The ISO branch never crashes."
  },
  {
   "property": "C39",
   "status": "partial",
   "theorems": [
    "C39_wrong_length_rejected_partial",
    "C39_unknown_header_accepted",
    "C39_reserved_partition_accepted",
    "C39_malformed_rejected_refuted",
    "C39_outcomes"
   ],
   "note": "Violated by the code: unknown headers give an empty URN and no error, reserved partition 7 gives a URN without fields and no error (C39_unknown_header_accepted, C39_reserved_partition_accepted, C39_malformed_rejected_refuted). Wrong lengths are rejected (C39_wrong_length_rejected_partial). C39_outcomes classifies every EPC input."
  },
  {
   "property": "C40",
   "status": "proved",
   "theorems": [
    "C40_round_trip",
    "C40_grai_without_asset_type"
   ],
   "note": "All four schemes, all partitions, every GS1 PC; GRAI with a twelve-digit company prefix both with and without asset type."
  },
  {
   "property": "C41",
   "status": "partial",
   "theorems": [
    "C41_encodable_partial",
    "C41_outside_the_table_partial",
    "C41_refuted"
   ],
   "note": "Exact for the company prefix lengths of the partition table (values below 2^63); refuted for other lengths, where the encoder pads nothing and succeeds exactly when the bits add up to 88 (C41_outside_the_table_partial, C41_refuted)."
  },
  {
   "property": "C42",
   "status": "proved",
   "theorems": [
    "C42_iso17365",
    "C42_iso17363",
    "C42_spaces_exact",
    "C42_beyond_limits"
   ],
   "note": "Round trips for both ISO schemes. Beyond the quantifier: C42_spaces_exact says what happens to spaces (they are dropped), C42_beyond_limits shows that a text of 83 characters crashes the encoder's PC computation."
  },
  {
   "property": "C43",
   "status": "proved",
   "theorems": [
    "C43_check_digit",
    "C43_single_error",
    "C43_wrong_digit"
   ],
   "note": "Both copies of the check digit function, the refusal of other lengths, and the exact error detection."
  },
  {
   "property": "C44",
   "status": "proved",
   "theorems": [
    "C44_pattern_filter_exact",
    "C44_encoded_tags",
    "C44_same_texts"
   ],
   "note": "On every 12-byte identifier the filter matches exactly the identifiers with the named field values; also as equality of field texts."
  },
  {
   "property": "C45",
   "status": "partial",
   "theorems": [
    "C45_iso_filter_partial",
    "C45_crash_exactly",
    "C45_letters_and_digits",
    "C45_iso17363_four_fields",
    "C45_refuted"
   ],
   "note": "Exact for 1-4 fields (ISO 17365) and 1-3 fields (ISO 17363). C45_refuted: the full ISO 17363 pattern with check digit is always refused (wrong fields are used for the check digit, C45_iso17363_four_fields), and a pattern longer than the identifier may crash the match: C45_crash_exactly says when (for letters and digits: when the tag's text has 8, 16, ... characters and the pattern goes on after it, C45_letters_and_digits)."
  },
  {
   "property": "C46",
   "status": "partial",
   "theorems": [
    "C46_epc_partial",
    "C46_iso17365_partial",
    "C46_iso17363_partial",
    "C46_refuted",
    "C46_empty_filter_partial",
    "C46_container_refuted",
    "C46_container_exactly_partial"
   ],
   "note": "Agreement for all schemes and all non-empty filter values / designators (fields upper case without separators), ISO 17363 up to three fields. C46_refuted: with an empty filter value each side draws random bits. C46_empty_filter_partial is exact: GIAI agrees (its encoder writes the drawn value into the pattern), the other schemes agree exactly when the two draws agree. C46_container_refuted: every complete ISO 17363 pattern with a three-letter owner becomes the match-all filter. C46_container_exactly_partial: with a serial number the two sides agree only for a two-letter owner code and an accidentally right check digit."
  },
  {
   "property": "C47",
   "status": "partial",
   "theorems": [
    "C47_end_to_end_partial",
    "C47_shared_patterns",
    "C47_exactly_partial",
    "C47_refuted"
   ],
   "note": "All four EPC schemes. Exact when no two subscribers write the same pattern; refuted otherwise (C47_refuted), where C47_shared_patterns says what still holds. C47_exactly_partial is the exact boundary tag by tag: right in every iteration order exactly when each subscriber asking for the tag has a pattern for it that nobody else wrote."
  },
  {
   "property": "C48",
   "status": "proved",
   "theorems": [
    "C48_stays_active",
    "C48_becomes_active",
    "C48_engine_generated",
    "C48_selected_generated",
    "C48_no_crash",
    "C48_can_become_active"
   ],
   "note": "For any four engines and any channel capacity. Liveness as reachability: once a generator has been initialised the goroutines' own steps can make the factory active."
  },
  {
   "property": "C49",
   "status": "proved",
   "theorems": [
    "C49_best_announced",
    "C49_best_generated",
    "C49_any_interleaving"
   ],
   "note": "Exact: selected iff it has the highest priority among the announced, as long as no throughput has been recorded. C49_any_interleaving says the same of the model that takes the selection access by access (MSelect)."
  },
  {
   "property": "C50",
   "status": "proved",
   "theorems": [
    "C50_tick_selects_fastest",
    "C50_tick_any",
    "C50_tick_exact",
    "C50_reported"
   ],
   "note": "Throughputs are compared as float64 values. C50_tick_any covers throughputs recorded while the ticker walks the table. C50_tick_exact compares the exact fractions, for counts below 2^53: an engine faster than the selected one has the same float64 throughput."
  },
  {
   "property": "C51",
   "status": "partial",
   "theorems": [
    "C51_refuted",
    "C51_messages_ignored"
   ],
   "note": "Violated: the messages are discarded (C51_refuted); C51_messages_ignored is the exact behaviour."
  },
  {
   "property": "C52",
   "status": "partial",
   "theorems": [
    "C52_moves",
    "C52_events",
    "C52_ready_has_engine_partial",
    "C52_ready_has_engine_in_factory",
    "C52_refuted",
    "C52_settles",
    "C52_no_deadlock"
   ],
   "note": "Moves and rejection are proved in full; ready implies engine is proved for every run of the factory and for every run in which nobody else fires the first deploy, and refuted otherwise."
  },
  {
   "property": "C53",
   "status": "partial",
   "theorems": [
    "C53_published_events",
    "C53_events_sum",
    "C53_published_matches_partial",
    "C53_refuted",
    "C53_matches_account_partial",
    "C53_matches_sum_partial"
   ],
   "note": "Event counts are proved in full. Matched counts are refuted (lost and doubled by the race between monitor and search) and proved for runs without that overlap. For every interleaving the account is exact: found + come back = published + lost + pending, with at most one match lost per firing of the monitor, and the sums agree exactly when as many were lost as came back."
  },
  {
   "property": "C54",
   "status": "partial",
   "theorems": [
    "C54_sent_exact",
    "C54_times_sent",
    "C54_content",
    "C54_each_kept_partial",
    "C54_refuted"
   ],
   "note": "Violated as stated (C54_refuted): the whole batch is sent again with every new point; C54_sent_exact and C54_times_sent say exactly how often. C54_content and C54_each_kept_partial: the database still ends up with exactly one complete record per statistic when points differ in measurement, engine or nanosecond (the database overwrites equal keys: assumption on InfluxDB, in SpecStat)."
  },
  {
   "property": "C55",
   "status": "proved",
   "theorems": [
    "C55_framing",
    "C55_pieces",
    "C55_sound",
    "C55_unknown_header",
    "C55_short_length"
   ],
   "note": "C55_framing (any segmentation, incomplete tail allowed), C55_sound (messages handled are what the stream begins with), C55_pieces, C55_unknown_header. C55_short_length: a length field below 10, which is no LLRP message, wraps to almost 4 GiB and swallows the stream."
  },
  {
   "property": "C56",
   "status": "partial",
   "theorems": [
    "C56_exact",
    "C56_report_partial",
    "C56_refuted"
   ],
   "note": "C56_exact: the report of every destination for every batch, always. Violated as stated (C56_refuted): a destination an answer names twice gets the identity twice; C56_report_partial: exactly the matched events where answers name a destination at most once. Main then discards the reports (main.go:241-243)."
  },
  {
   "property": "C57",
   "status": "partial",
   "theorems": [
    "C57_list",
    "C57_trees",
    "C57_subscriptions",
    "C57_legacy_refuted",
    "C57_legacy_exactly_partial"
   ],
   "note": "Proved for List, PatriciaTrie, SplayTree and Subscriptions. False for the Legacy engine (C57_legacy_refuted): it counts with the wrong loop bound; C57_legacy_exactly_partial says which cuts it notices: with n addresses exactly those within the first 2 + n(n+2) values, any later cut changes nothing."
  },
  {
   "property": "C58",
   "status": "proved",
   "theorems": [
    "C58_partial_subscription_round_trip",
    "C58_cut_off",
    "C58_damaged_entry"
   ],
   "note": "For every nesting; maps are restored from any writing order."
  },
  {
   "property": "C59",
   "status": "proved",
   "theorems": [
    "C59_foreign_data_rejected",
    "C59_any_other_data"
   ],
   "note": "All twelve pairs, and any data with another first value."
  },
  {
   "property": "C60",
   "status": "partial",
   "theorems": [
    "C60_own_answer",
    "C60_list_answers",
    "C60_patricia_answers",
    "C60_splay_answers",
    "C60_exactly_partial",
    "C60_no_crash_partial",
    "C60_answers_partial",
    "C60_legacy_answers_partial",
    "C60_selection_invisible_partial",
    "C60_refuted"
   ],
   "note": "Every answer in every run, for any subscriptions, is what the engine of that time gives by itself (C60_own_answer, and one theorem per engine). The same URIs whatever the engine: proved for subscriptions inside the limits of all engines (fit); refuted for a single subscription, which the Patricia trie loses. C60_exactly_partial: for subscriptions of distinct URIs that share no prefix the limits are exact (outside them some interleaving gives a wrong answer). The text engine answers by its own rule."
  },
  {
   "property": "C61",
   "status": "partial",
   "theorems": [
    "C61_exactly_partial",
    "C61_legacy_refuted",
    "C61_end_to_end_partial",
    "C61_legacy_partial"
   ],
   "note": "Proved for pattern sets inside the limits (epc_fit), for the three byte engines. C61_exactly_partial: when each subscriber has one pattern these limits are exact (outside them some run answers wrongly). The text engine's answers are characterised exactly (C61_legacy_partial); it tells every subscriber who does not list all eight filter values of tags they did not ask for (C61_legacy_refuted)."
  },
  {
   "property": "C62",
   "status": "proved",
   "theorems": [
    "C62_counts_reach_main",
    "C62_counts_all_received",
    "C62_order_refuted",
    "C62_in_order_partial"
   ],
   "note": "Exactly once, as multisets; C62_order_refuted shows that the order may change, C62_in_order_partial that it does not when the listener leaves the counts in the channel to main."
  },
  {
   "property": "C63",
   "status": "proved",
   "theorems": [
    "C63_search_completes"
   ],
   "note": "As reachability by the goroutines' own steps, from every reachable state."
  },
  {
   "property": "C64",
   "status": "partial",
   "theorems": [
    "C64_recorded_measured_partial",
    "C64_refuted",
    "C64_latest_partial"
   ],
   "note": "Violated: the listener may take an older throughput out of the channel to main and record it again (C64_refuted). What is recorded was measured, and it is the last report if the listener leaves the throughputs in the channel to main (C64_latest_partial)."
  },
  {
   "property": "C65",
   "status": "partial",
   "theorems": [
    "C65_selection_sound_partial",
    "C65_refuted",
    "C65_told_partial",
    "C65_up_to_date_partial"
   ],
   "note": "Violated: the listener may take the SelectedEngine message out of the channel to main (C65_refuted). What main is told is sound, and main is told of every change if the listener leaves that message in the channel (C65_told_partial, C65_up_to_date_partial)."
  },
  {
   "property": "C66",
   "status": "partial",
   "theorems": [
    "C66_recordable_partial",
    "C66_fatal",
    "C66_no_crash_partial",
    "C66_exactly_partial",
    "C66_refuted"
   ],
   "note": "Violated (C66_refuted, C66_fatal): an interval in which all searches took under a microsecond gives the throughput +Inf, which the client refuses, and log.Fatal ends the program. C66_no_crash_partial: in every interleaving in which each search takes at least one microsecond and no counter overflows, every statistic that reaches main is stored. C66_exactly_partial: in any interleaving (counters below 2^63) the program ends exactly when a throughput measured over no time reaches main."
  },
  {
   "property": "C67",
   "status": "partial",
   "theorems": [
    "C67_named_partial",
    "C67_moment",
    "C67_engine_number_partial",
    "C67_refuted"
   ],
   "note": "C67_engine_number_partial: the four names have four numbers. Violated (C67_refuted): a tick before the first announcement sends the empty name, recorded as 0, the number of the Legacy engine. If the ticks come after the first announcement, every recorded number is that of a generated engine (C67_named_partial). C67_moment: in every interleaving the number is that of the engine selected at some moment before, or 0 if none was."
  },
  {
   "property": "C68",
   "status": "partial",
   "theorems": [
    "C68_replies_partial",
    "C68_only_replies",
    "C68_refuted",
    "C68_exactly_partial"
   ],
   "note": "C68_replies_partial, C68_only_replies: the replies and their order, for any stream and segmentation. Violated for the message id (C68_refuted): it is always 0, the flag being read before it is parsed. C68_exactly_partial: as claimed if and only if the configured id is zero or no message calls for a reply."
  },
  {
   "property": "C69",
   "status": "partial",
   "theorems": [
    "C69_answers_in_order",
    "C69_wire_to_reports_partial"
   ],
   "note": "C69_wire_to_reports_partial: for EPC patterns within the engines' limits (epc_fit), destinations none of whose patterns covers another, and answers not given by the Legacy engine (whose filter values are ignored, C18). The decoder of reports is a parameter (library)."
  },
  {
   "property": "C70",
   "status": "partial",
   "theorems": [
    "C70_epc",
    "C70_epc_error_dropped",
    "C70_epc_prefix",
    "C70_iso17365",
    "C70_iso17363",
    "C70_iso_prefix",
    "C70_refuted"
   ],
   "note": "C70_epc, C70_epc_prefix, C70_iso17365, C70_iso17363, C70_iso_prefix: for every valid set of fields. Violated for fields that fit no tag (C70_refuted, exact in C70_epc_error_dropped): no error is reported, the identifier is the empty string."
  },
  {
   "property": "C71",
   "status": "partial",
   "theorems": [
    "C71_bytes",
    "C71_pc",
    "C71_refuted"
   ],
   "note": "C71_pc: exact. C71_bytes: exact on identifiers, and any other text gives the empty identifier. Violated (C71_refuted): makeByteID returns nil in place of the error."
  },
  {
   "property": "C72",
   "status": "partial",
   "theorems": [
    "C72_tag_and_filters_partial",
    "C72_run_partial",
    "C72_clash",
    "C72_refuted"
   ],
   "note": "C72_tag_and_filters_partial, C72_run_partial: for GIAI references that fit their bits and no GRAI file drawn twice. Violated otherwise (C72_refuted): a GIAI reference drawn too large gives an empty line, and a GRAI file drawn twice ends the program (always: C72_clash)."
  },
  {
   "property": "C73",
   "status": "proved",
   "theorems": [
    "C73_filter_text",
    "C73_filter_text_identifies"
   ],
   "note": "C73_filter_text: exact text; C73_filter_text_identifies for arbitrary characters."
  },
  {
   "property": "C74",
   "status": "partial",
   "theorems": [
    "C74_list",
    "C74_patricia",
    "C74_splay_partial",
    "C74_refuted",
    "C74_exactly_partial",
    "C74_legacy"
   ],
   "note": "C74_list, C74_patricia, C74_legacy in full (histories unrestricted); C74_splay_partial for trees that had a subscription at the start. Violated otherwise (C74_refuted): Dump of a splay tree without subscriptions dereferences a nil filter. %q is modelled exactly for bytes below 127 only. C74_exactly_partial: that is the only case, after any history."
  },
  {
   "property": "C75",
   "status": "proved",
   "theorems": [
    "C75_byte_subscriptions",
    "C75_converted"
   ],
   "note": "C75_byte_subscriptions for any nesting; C75_converted for the result of ToByteSubscriptions."
  },
  {
   "property": "C76",
   "status": "partial",
   "theorems": [
    "C76_first_group",
    "C76_shared",
    "C76_majority_refuted",
    "C76_exactly_partial"
   ],
   "note": "C76_first_group: the exact answer on every list (the first group in dictionary order, or none exists); C76_shared. Violated: the prefix is not the one the majority shares (C76_majority_refuted). C76_exactly_partial says on which lists it is."
  },
  {
   "property": "C77",
   "status": "partial",
   "theorems": [
    "C77_grouping",
    "C77_grouping_subs",
    "C77_nesting_refuted",
    "C77_exactly_partial",
    "C77_nested_refuted"
   ],
   "note": "C77_grouping: total, lossless, nothing but URI-less group nodes added, offsets and nesting consistent, no group left; C77_grouping_subs for converted subscriptions. Violated: an extension of another subscription's prefix may stay beside it (C77_nesting_refuted). C77_exactly_partial says for which maps this does not happen."
  },
  {
   "property": "C78",
   "status": "partial",
   "theorems": [
    "C78_patricia_partial",
    "C78_splay_partial",
    "C78_both_ways",
    "C78_equal_refuted"
   ],
   "note": "C78_patricia_partial, C78_splay_partial: true exactly when the wanted tree is contained in the other; C78_both_ways. Violated as equality (C78_equal_refuted): superfluous nodes go unnoticed."
  },
  {
   "property": "C79",
   "status": "proved",
   "theorems": [
    "C79_six_bit_text",
    "C79_six_bit_readable",
    "C79_lower_case_refuted",
    "C79_padding",
    "C79_in_slice"
   ],
   "note": "C79_six_bit_text, C79_six_bit_readable (characters 32 to 95), C79_padding, C79_in_slice. Outside that alphabet texts collide (C79_lower_case_refuted)."
  },
  {
   "property": "C80",
   "status": "partial",
   "theorems": [
    "C80_tool_partial",
    "C80_no_argument_refuted"
   ],
   "note": "C80_tool_partial for every argument. Violated without an argument (C80_no_argument_refuted): the test of the argument count is off by one and the tool crashes."
  },
  {
   "property": "C81",
   "status": "proved",
   "theorems": [
    "C81_reads_the_format",
    "C81_load",
    "C81_unambiguous",
    "C81_round_trip",
    "C81_no_address"
   ],
   "note": "Go 1.23's encoding/csv is modelled as a character machine and proved equal to a grammar of the format. Opening and reading the file can fail in other ways that are not modelled."
  },
  {
   "property": "C82",
   "status": "partial",
   "theorems": [
    "C82_no_quotes_partial",
    "C82_bad_line_refuted"
   ],
   "note": "False: a quote inside an unquoted field crashes the program whatever the other lines are (C82_bad_line_refuted). True for files without quotes."
  },
  {
   "property": "C83",
   "status": "partial",
   "theorems": [
    "C83_file_to_answers_partial",
    "C83_exactly_partial",
    "C83_refuted"
   ],
   "note": "Proved when no prefix is asked for by two addresses; false otherwise (C83_refuted). C83_exactly_partial is the exact boundary for every file and tag: right in every iteration order exactly when each address that asks for the tag has a matching prefix that nobody else asks for."
  },
  {
   "property": "C84",
   "status": "partial",
   "theorems": [
    "C84_capitals_ignored_refuted",
    "C84_values_partial",
    "C84_type_refuted",
    "C84_exactly_partial"
   ],
   "note": "False: a pattern with a capital letter in 'urn:epc:pat:' is loaded and then ignored (C84_capitals_ignored_refuted), one with a capital letter in the name of its scheme matches every tag (C84_type_refuted). Proved for the values (C84_values_partial); C84_exactly_partial is the exact rule for the names."
  },
  {
   "property": "C85",
   "status": "partial",
   "theorems": [
    "C85_any_time",
    "C85_filters_partial",
    "C85_exactly_partial",
    "C85_refuted"
   ],
   "note": "False for the last filter: main does not wait for the writer, so one filter may be lost (C85_refuted). Proved: at any time all sent filters but at most the last are in the file, in order, and at the end all filters of all sets made were sent. C85_exactly_partial: the file is complete if and only if the writer holds no filter."
  },
  {
   "property": "C86",
   "status": "proved",
   "theorems": [
    "C86_runs_end",
    "C86_no_deadlock",
    "C86_completes"
   ],
   "note": "For any number of workers and any capacity, both at least one."
  },
  {
   "property": "C87",
   "status": "partial",
   "theorems": [
    "C87_never_fatal",
    "C87_files_partial",
    "C87_refuted_twice",
    "C87_refuted_mixed",
    "C87_refuted_fatal",
    "C87_exactly_partial"
   ],
   "note": "Proved when no two parameters share a file and no file was there before. Otherwise filters may be sent twice, files may be mixed and the program may stop (C87_refuted_twice, C87_refuted_mixed, C87_refuted_fatal). C87_exactly_partial: these limits are exact, for any number of workers."
  },
  {
   "property": "C88",
   "status": "partial",
   "theorems": [
    "C88_refuted_rounding",
    "C88_lines",
    "C88_different",
    "C88_rounds_partial"
   ],
   "note": "False: the number of rounds may be one less by rounding (C88_refuted_rounding), and each round sends 31 filters. Proved: for up to 2^40 subscriptions both numbers of rounds are the requested shares rounded down, or one less, the latter only when the share is a whole number of rounds (C88_rounds_partial); exactly 31 filters for each round, at most 20 different ones for each round and one more."
  },
  {
   "property": "C89",
   "status": "partial",
   "theorems": [
    "C89_selection_partial",
    "C89_refuted"
   ],
   "note": "False for 17365 whenever both kinds of rounds occur (C89_refuted); the exact condition for a match is proved for all schemes."
  },
  {
   "property": "C90",
   "status": "proved",
   "theorems": [
    "C90_path",
    "C90_own_file",
    "C90_no_nesting"
   ],
   "note": "For the parameters main makes; the digits and letters of the names are as drawn."
  },
  {
   "property": "C91",
   "status": "partial",
   "theorems": [
    "C91_percentage",
    "C91_hundred",
    "C91_recorded_partial",
    "C91_exactly_partial",
    "C91_refuted"
   ],
   "note": "C91_percentage, C91_hundred: the formula, for all 64-bit counts. C91_recorded_partial: in every interleaving in which no search is being counted while its monitor publishes. Violated otherwise (C91_refuted: 200). C91_exactly_partial: in every interleaving (counts below 2^53) a recorded value is never negative, and a percentage exactly when not more matches than events were published."
  },
  {
   "property": "C92",
   "status": "partial",
   "theorems": [
    "C92_fresh",
    "C92_other_data",
    "C92_patricia_exactly_partial",
    "C92_splay_exactly_partial",
    "C92_same_tree_partial",
    "C92_list_exactly_partial",
    "C92_subscriptions_exactly_partial",
    "C92_patricia_refuted",
    "C92_splay_refuted"
   ],
   "note": "Violated for every engine (C92_patricia_refuted, C92_splay_refuted: answers change without an error; lists are appended to, the text engine keeps what it had, C24_nothing_stored). For each engine the exact condition under which it holds is proved (C92_*_exactly_partial); on a fresh engine it is C21-C25 (C92_fresh)."
  },
  {
   "property": "C93",
   "status": "partial",
   "theorems": [
    "C93_bits_partial",
    "C93_subscriptions_partial",
    "C93_list_search_partial",
    "C93_negative_refuted",
    "C93_exactly_partial"
   ],
   "note": "Proved for every pattern without a minus sign in front of a field, whatever else it is (C93_bits_partial), and with it the list engine's exactness for all such subscriptions and histories (C93_list_search_partial). Violated by negative filter values (C93_negative_refuted): such a subscriber is told of every tag. C93_exactly_partial: bits exactly when the filter value of the (EPC) pattern does not read as a negative number."
  },
  {
   "property": "C94",
   "status": "partial",
   "theorems": [
    "C94_loaded",
    "C94_switch_refuted",
    "C94_for_good_refuted",
    "C94_first_partial",
    "C94_first_refuted",
    "C94_same_length_partial",
    "C94_no_other_engine_partial",
    "C94_quiet_partial"
   ],
   "note": "Violated: for any two engines whose names differ in length a search can combine the address of one with the length of the other, find no engine and crash (C94_switch_refuted), the listener and the ticker together can leave such a string behind for good (C94_for_good_refuted), and so can the first selection if the length is stored first (C94_first_refuted). C94_loaded is the exact outcome for every pair of words. Proved: a search is never answered by an engine that was neither selected nor being assigned (C94_no_other_engine_partial), names of equal length are safe under any number of concurrent assignments (C94_same_length_partial), so is a first selection that stores the address first (C94_first_partial), and so is a search with no assignment under way (C94_quiet_partial)."
  },
  {
   "property": "C95",
   "status": "proved",
   "theorems": [
    "C95_counted",
    "C95_list",
    "C95_patricia",
    "C95_patricia_fresh",
    "C95_splay",
    "C95_splay_subscriptions"
   ],
   "note": "Proved for all engines with filters; the counting searches are shown to be the modelled searches (C95_counted)."
  },
  {
   "property": "C96",
   "status": "partial",
   "theorems": [
    "C96_adapts_partial",
    "C96_adapts_refuted",
    "C96_again_partial",
    "C96_again_refuted"
   ],
   "note": "Proved where searches leave the subscriptions alone (each prefix has one chain of extensions, the exact limit of C13). With several incomparable extensions of a prefix both claims are false: the number of comparisons exceeds the bound by any amount (C96_adapts_refuted), and a tag searched again may cost more than its URIs and one (C96_again_refuted)."
  },
  {
   "property": "C97",
   "status": "partial",
   "theorems": [
    "C97_names",
    "C97_selected",
    "C97_apart_partial",
    "C97_better_partial",
    "C97_message_partial",
    "C97_answered",
    "C97_tick",
    "C97_announced",
    "C97_better_refuted",
    "C97_told_refuted",
    "C97_last_refuted"
   ],
   "note": "Each of the three claims is refuted by a schedule (C97_better_refuted, C97_told_refuted, C97_last_refuted). They hold when the listener and the ticker are never both at work (C97_apart_partial). For all interleavings: a lesser engine is only put in place right after the ticker's change (C97_better_partial), a party's message names its own change or a later one of the other party (C97_message_partial), every change is followed by a message of the party that made it (C97_answered), only proposed engines are ever selected or told (C97_names), the name is never lost (C97_selected), an undisturbed tick sets things right (C97_tick), and an undisturbed announcement selects and tells the engine exactly if none or a lesser one was selected (C97_announced)."
  },
  {
   "property": "C98",
   "status": "partial",
   "theorems": [
    "C98_in_order",
    "C98_at_the_end_partial",
    "C98_complete_partial",
    "C98_waits_partial",
    "C98_goes_on",
    "C98_refuted",
    "C98_waits_refuted"
   ],
   "note": "Violated twice: the end of the connection ends the program in the middle of a report (C98_refuted), and a keepalive behind two reports waits for the first one's searches (C98_waits_refuted). C98_in_order: order and account at any moment. C98_at_the_end_partial: all replies are written and only events of the last report can be missing; C98_complete_partial: exactly when nothing is missing. C98_waits_partial: the loop waits exactly when two reports more have come than have been worked off. C98_goes_on: no deadlock, and a bound on the number of steps."
  },
  {
   "property": "C99",
   "status": "partial",
   "theorems": [
    "C99_without_main_partial",
    "C99_pending",
    "C99_bounded_partial",
    "C99_stuck",
    "C99_refuted"
   ],
   "note": "Violated when main stalls: with capacity + 2 messages waiting, a search can be stuck until main receives (C99_refuted, C99_stuck). Up to capacity + 1 messages every search is answered without main (C99_without_main_partial), in particular if no more were made than that (C99_bounded_partial)."
  }
 ]
}