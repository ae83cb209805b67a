{
 "C01": {
  "note": "All patterns over {0,1,x}, offsets and identifiers that cover the filter's bytes.",
  "status": "proved"
 },
 "C02": {
  "note": "",
  "status": "proved"
 },
 "C03": {
  "note": "",
  "status": "proved"
 },
 "C04": {
  "note": "",
  "status": "proved"
 },
 "C05": {
  "note": "",
  "status": "proved"
 },
 "C06": {
  "note": "",
  "status": "proved"
 },
 "C07": {
  "note": "Every history of add/delete calls; prefixes over {0,1}; identifiers too short to decide a prefix make Search crash (C07_list_search_short).",
  "status": "proved"
 },
 "C08": {
  "note": "C08_own_draws: the same with random bits drawn anew in every call, for any patterns.",
  "status": "proved"
 },
 "C09": {
  "note": "False in general: the subscription whose prefix is the common prefix of all is never reported (C09_refuted, C09_single_refuted). C09_patricia_exact gives the exact behaviour for every subscription set; C09_exactly_partial shows that the property holds for a subscription set exactly when the common prefix is not subscribed.",
  "status": "partial"
 },
 "C10": {
  "note": "False in general: C10_misplaced_refuted shows that the first badly placed addition (no node at the prefix, but a node below it) always loses the new subscription; C10_careful_history_partial is the property for every history of well placed changes, from any starting subscriptions; C10_patricia_history_partial gives a condition on the history alone (top_down). The boundary told from the prefixes alone, without the trie (SpecPlaces: the places are where subscribed prefixes part): C10_places_partial, and exactly for one more subscription (C10_add_exactly_partial) and for whole histories of single updates (C10_exactly_partial).",
  "status": "partial"
 },
 "C11": {
  "note": "False exactly when the prefix to remove is subscribed and has the only node of the trie (C11_misplaced_refuted, C11_refuted). Proved otherwise: C10_careful_history_partial covers deletions in every well placed history, C11_patricia_delete_partial every top-down history. C11_delete_exactly_partial: after a well placed history a removal is answered rightly if and only if the prefix does not have the only place (SpecPlaces).",
  "status": "partial"
 },
 "C12": {
  "note": "Proved for every non-empty subscription set; an engine without subscriptions crashes on every search (C12_refuted). C12_exactly_partial: the first searches are right if and only if something is subscribed.",
  "status": "partial"
 },
 "C13": {
  "note": "Proved for every search history when the extensions of each subscribed prefix form a chain, and this condition is exact (C13_exactly_partial): with two incomparable extensions of one prefix some tag loses a URI on its second search (C13_fork_refuted, C13_refuted).",
  "status": "partial"
 },
 "C14": {
  "note": "Proved for every calm history of searches, additions and deletions. C14_new_prefix_partial gives the answers after adding any new prefix: exactly the tags with a subscribed extension of it miss it (C14_refuted is an instance). The limits are exact: C14_add_exactly_partial for one more subscription after a calm history, C14_exactly_partial for whole histories of single updates.",
  "status": "partial"
 },
 "C15": {
  "note": "Proved along calm histories. The excluded deletions always fail: a prefix with several branches above it stays with an empty URI (C15_branches_refuted), the only subscription stays (C15_only_refuted). C15_delete_exactly_partial: after a calm history a removal is answered rightly exactly outside these two cases.",
  "status": "partial"
 },
 "C16": {
  "note": "Proved when the common prefix of all subscriptions is not itself subscribed and (if searches came before) extensions form chains; false in general (C16_refuted), and C16_exactly_partial shows that these two conditions are exactly what agreement needs.",
  "status": "partial"
 },
 "C17": {
  "note": "Search is characterised for every iteration order (told/selects in SpecLegacy); patterns of unknown types and the first three parts of a pattern are compared/ignored as the code does.",
  "status": "proved"
 },
 "C18": {
  "note": "Refuted in general (filter value ignored, field prefixes, empty GRAI item reference, shared patterns), and for every subscriber who does not list all eight filter values (C18_filter_value_refuted). Proved: exact text selection, list reports are included in legacy reports, and agreement when filter values match and last fields are full. C18_exactly_partial gives the exact boundary tag by tag: the engines agree on a tag in every iteration order exactly when everyone whose text selects it has a pattern of their own that leads to it field by field.",
  "status": "partial"
 },
 "C19": {
  "note": "Adds all, keeps all; nothing twice unless the argument itself repeats a pattern (refuted otherwise). Storage sharing with the caller shown by C19_shared_storage. C19_exactly_partial: how often every pair is stored afterwards; nothing is stored twice if and only if nothing was before and the argument repeats no pair but stored ones.",
  "status": "partial"
 },
 "C20": {
  "note": "Refuted when two stored patterns of one URI go at once; C20_exactly_partial: right if and only if at most one stored pattern per URI is named; C20_exact gives the result of every deletion.",
  "status": "partial"
 },
 "C21": {
  "note": "Over the sequence of encoded values; encoding/gob is assumed to read back single values as written.",
  "status": "proved"
 },
 "C22": {
  "note": "Proved for tries in which every node has both children or none; C22_exact says what happens to every other trie and C22_same_iff when the trie comes back whole. False in general (C22_refuted): patricia_trie.go:174 tests hasOne instead of hasZero, so a zero branch without a one branch is dropped without an error, and a one branch alone makes a spurious error. C22_read_exact says the same of what is restored, read as a trie.",
  "status": "partial"
 },
 "C23": {
  "note": "Into an engine whose root is nil. Encoding a nil root panics in gob; NewSplayTree never leaves it nil.",
  "status": "proved"
 },
 "C24": {
  "note": "False for every engine with a subscription (C24_refuted): UnmarshalBinary never stores what it reads. Only the empty engine is restored (C24_empty_partial). C24_silent_exactly says when the loss goes without an error; always when each address has as many patterns as there are addresses (C24_silent).",
  "status": "partial"
 },
 "C25": {
  "note": "Round trip for every iteration order and receiving map, independence of the bytes from the order, and the clone's separate storage. Restoring into a nil map panics (C25_nil_map).",
  "status": "proved"
 },
 "C26": {
  "note": "",
  "status": "proved"
 },
 "C27": {
  "note": "False when two URIs share a prefix (C27_refuted_loss, C27_refuted_order). The exact boundary is proved: both claims hold exactly when no prefix is asked for by two URIs (C27_exactly), and what is stored is always the last request (C27_last_wins). With random bits drawn anew for every pattern, patterns without empty fields are converted, and whole histories of the engines run, as with one source of random bits (C27_definite, C27_definite_histories); a pattern with an empty field stands for other tags at each conversion, so deleting it need not remove it (C27_draws_refuted).",
  "status": "partial"
 },
 "C28": {
  "note": "False: a rejected pattern of the shape type:fields becomes the empty prefix and catches every tag (C28_refuted, C28_rejected_catches_all_refuted); C28_catches_all_exactly gives exactly the patterns stored as the empty prefix. Patterns of another shape are ignored (proved).",
  "status": "partial"
 },
 "C29": {
  "note": "For every flat set of prefix subscriptions.",
  "status": "proved"
 },
 "C30": {
  "note": "From the records encoding/csv returns; C81 gives the reading of the file's text. Lower-casing is ASCII.",
  "status": "proved"
 },
 "C31": {
  "note": "For every non-empty list of well-formed filters that share a byte, and every ID. C31_exactly: sharing a byte is also necessary, for otherwise there is no composition or the composite filter crashes on an identifier a member accepts.",
  "status": "proved"
 },
 "C32": {
  "note": "C32_exactly_partial: true for a list of filters exactly when they share a byte and filters with the same pattern text select the same identifiers (same offset, or no bit at all); C32_composite_and_child_partial: always true for the last filter with its text. Violated otherwise (C32_refuted): the children map is keyed by pattern text, so members with the same text at different offsets overwrite each other; and filters that only touch (one ends where the other begins) have an empty composite filter that crashes.",
  "status": "partial"
 },
 "C33": {
  "note": "Characterises the grouping completely: concatenation, consecutive groups, no two neighbours mergeable, and uniqueness. Integers are unbounded in the model.",
  "status": "proved"
 },
 "C34": {
  "note": "For every identifier with the scheme's header whose partition and digits are valid; pure_identity_unique shows the specified URN is unique.",
  "status": "proved"
 },
 "C35": {
  "note": "For every identifier with the scheme's header whose partition and digits are valid; pure_identity_unique shows the specified URN is unique.",
  "status": "proved"
 },
 "C36": {
  "note": "For every identifier with the scheme's header whose partition and digits are valid; pure_identity_unique shows the specified URN is unique. For partition 0 the URN has no asset-type field (the project's own test expects this; the GS1 standard would keep an empty field).",
  "status": "proved"
 },
 "C37": {
  "note": "For every identifier with the scheme's header whose partition and digits are valid; pure_identity_unique shows the specified URN is unique.",
  "status": "proved"
 },
 "C38": {
  "note": "Violated by the code: C38_translate_never_crashes_refuted. C38_translate_crashes_exactly gives the exact set of crashing inputs: empty identifier, or a 96-bit tag one of whose fields has more digits than its table row. The ISO branch never crashes.",
  "status": "partial"
 },
 "C39": {
  "note": "Violated by the code: unknown headers give an empty URN and no error, reserved partition 7 gives a URN without fields and no error (C39_unknown_header_accepted, C39_reserved_partition_accepted, C39_malformed_rejected_refuted). Wrong lengths are rejected (C39_wrong_length_rejected_partial). C39_outcomes classifies every EPC input.",
  "status": "partial"
 },
 "C40": {
  "note": "All four schemes, all partitions, every GS1 PC; GRAI with a twelve-digit company prefix both with and without asset type.",
  "status": "proved"
 },
 "C41": {
  "note": "Exact for the company prefix lengths of the partition table (values below 2^63); refuted for other lengths, where the encoder pads nothing and succeeds exactly when the bits add up to 88 (C41_outside_the_table_partial, C41_refuted).",
  "status": "partial"
 },
 "C42": {
  "note": "Round trips for both ISO schemes. Beyond the quantifier: C42_spaces_exact says what happens to spaces (they are dropped), C42_beyond_limits shows that a text of 83 characters crashes the encoder's PC computation.",
  "status": "proved"
 },
 "C43": {
  "note": "Both copies of the check digit function, the refusal of other lengths, and the exact error detection.",
  "status": "proved"
 },
 "C44": {
  "note": "On every 12-byte identifier the filter matches exactly the identifiers with the named field values; also as equality of field texts.",
  "status": "proved"
 },
 "C45": {
  "note": "Exact for 1-4 fields (ISO 17365) and 1-3 fields (ISO 17363). C45_refuted: the full ISO 17363 pattern with check digit is always refused (wrong fields are used for the check digit, C45_iso17363_four_fields), and a pattern longer than the identifier may crash the match: C45_crash_exactly says when (for letters and digits: when the tag's text has 8, 16, ... characters and the pattern goes on after it, C45_letters_and_digits).",
  "status": "partial"
 },
 "C46": {
  "note": "Agreement for all schemes and all non-empty filter values / designators (fields upper case without separators), ISO 17363 up to three fields. C46_refuted: with an empty filter value each side draws random bits. C46_empty_filter_partial is exact: GIAI agrees (its encoder writes the drawn value into the pattern), the other schemes agree exactly when the two draws agree. C46_container_refuted: every complete ISO 17363 pattern with a three-letter owner becomes the match-all filter. C46_container_exactly_partial: with a serial number the two sides agree only for a two-letter owner code and an accidentally right check digit.",
  "status": "partial"
 },
 "C47": {
  "note": "All four EPC schemes. Exact when no two subscribers write the same pattern; refuted otherwise (C47_refuted), where C47_shared_patterns says what still holds. C47_exactly_partial is the exact boundary tag by tag: right in every iteration order exactly when each subscriber asking for the tag has a pattern for it that nobody else wrote.",
  "status": "partial"
 },
 "C48": {
  "note": "For any four engines and any channel capacity. Liveness as reachability: once a generator has been initialised the goroutines' own steps can make the factory active.",
  "status": "proved"
 },
 "C49": {
  "note": "Exact: selected iff it has the highest priority among the announced, as long as no throughput has been recorded. C49_any_interleaving says the same of the model that takes the selection access by access (MSelect).",
  "status": "proved"
 },
 "C50": {
  "note": "Throughputs are compared as float64 values. C50_tick_any covers throughputs recorded while the ticker walks the table. C50_tick_exact compares the exact fractions, for counts below 2^53: an engine faster than the selected one has the same float64 throughput.",
  "status": "proved"
 },
 "C51": {
  "note": "Violated: the messages are discarded (C51_refuted); C51_messages_ignored is the exact behaviour.",
  "status": "partial"
 },
 "C52": {
  "note": "Moves and rejection are proved in full; ready implies engine is proved for every run of the factory and for every run in which nobody else fires the first deploy, and refuted otherwise.",
  "status": "partial"
 },
 "C53": {
  "note": "Event counts are proved in full. Matched counts are refuted (lost and doubled by the race between monitor and search) and proved for runs without that overlap. For every interleaving the account is exact: found + come back = published + lost + pending, with at most one match lost per firing of the monitor, and the sums agree exactly when as many were lost as came back.",
  "status": "partial"
 },
 "C54": {
  "note": "Violated as stated (C54_refuted): the whole batch is sent again with every new point; C54_sent_exact and C54_times_sent say exactly how often. C54_content and C54_each_kept_partial: the database still ends up with exactly one complete record per statistic when points differ in measurement, engine or nanosecond (the database overwrites equal keys: assumption on InfluxDB, in SpecStat).",
  "status": "partial"
 },
 "C55": {
  "note": "C55_framing (any segmentation, incomplete tail allowed), C55_sound (messages handled are what the stream begins with), C55_pieces, C55_unknown_header. C55_short_length: a length field below 10, which is no LLRP message, wraps to almost 4 GiB and swallows the stream.",
  "status": "proved"
 },
 "C56": {
  "note": "C56_exact: the report of every destination for every batch, always. Violated as stated (C56_refuted): a destination an answer names twice gets the identity twice; C56_report_partial: exactly the matched events where answers name a destination at most once. Main then discards the reports (main.go:241-243).",
  "status": "partial"
 },
 "C57": {
  "note": "Proved for List, PatriciaTrie, SplayTree and Subscriptions. False for the Legacy engine (C57_legacy_refuted): it counts with the wrong loop bound; C57_legacy_exactly_partial says which cuts it notices: with n addresses exactly those within the first 2 + n(n+2) values, any later cut changes nothing.",
  "status": "partial"
 },
 "C58": {
  "note": "For every nesting; maps are restored from any writing order.",
  "status": "proved"
 },
 "C59": {
  "note": "All twelve pairs, and any data with another first value.",
  "status": "proved"
 },
 "C60": {
  "note": "Every answer in every run, for any subscriptions, is what the engine of that time gives by itself (C60_own_answer, and one theorem per engine). The same URIs whatever the engine: proved for subscriptions inside the limits of all engines (fit); refuted for a single subscription, which the Patricia trie loses. C60_exactly_partial: for subscriptions of distinct URIs that share no prefix the limits are exact (outside them some interleaving gives a wrong answer). The text engine answers by its own rule.",
  "status": "partial"
 },
 "C61": {
  "note": "Proved for pattern sets inside the limits (epc_fit), for the three byte engines. C61_exactly_partial: when each subscriber has one pattern these limits are exact (outside them some run answers wrongly). The text engine's answers are characterised exactly (C61_legacy_partial); it tells every subscriber who does not list all eight filter values of tags they did not ask for (C61_legacy_refuted).",
  "status": "partial"
 },
 "C62": {
  "note": "Exactly once, as multisets; C62_order_refuted shows that the order may change, C62_in_order_partial that it does not when the listener leaves the counts in the channel to main.",
  "status": "proved"
 },
 "C63": {
  "note": "As reachability by the goroutines' own steps, from every reachable state.",
  "status": "proved"
 },
 "C64": {
  "note": "Violated: the listener may take an older throughput out of the channel to main and record it again (C64_refuted). What is recorded was measured, and it is the last report if the listener leaves the throughputs in the channel to main (C64_latest_partial).",
  "status": "partial"
 },
 "C65": {
  "note": "Violated: the listener may take the SelectedEngine message out of the channel to main (C65_refuted). What main is told is sound, and main is told of every change if the listener leaves that message in the channel (C65_told_partial, C65_up_to_date_partial).",
  "status": "partial"
 },
 "C66": {
  "note": "Violated (C66_refuted, C66_fatal): an interval in which all searches took under a microsecond gives the throughput +Inf, which the client refuses, and log.Fatal ends the program. C66_no_crash_partial: in every interleaving in which each search takes at least one microsecond and no counter overflows, every statistic that reaches main is stored. C66_exactly_partial: in any interleaving (counters below 2^63) the program ends exactly when a throughput measured over no time reaches main.",
  "status": "partial"
 },
 "C67": {
  "note": "C67_engine_number_partial: the four names have four numbers. Violated (C67_refuted): a tick before the first announcement sends the empty name, recorded as 0, the number of the Legacy engine. If the ticks come after the first announcement, every recorded number is that of a generated engine (C67_named_partial). C67_moment: in every interleaving the number is that of the engine selected at some moment before, or 0 if none was.",
  "status": "partial"
 },
 "C68": {
  "note": "C68_replies_partial, C68_only_replies: the replies and their order, for any stream and segmentation. Violated for the message id (C68_refuted): it is always 0, the flag being read before it is parsed. C68_exactly_partial: as claimed if and only if the configured id is zero or no message calls for a reply.",
  "status": "partial"
 },
 "C69": {
  "note": "C69_wire_to_reports_partial: for EPC patterns within the engines' limits (epc_fit), destinations none of whose patterns covers another, and answers not given by the Legacy engine (whose filter values are ignored, C18). The decoder of reports is a parameter (library).",
  "status": "partial"
 },
 "C70": {
  "note": "C70_epc, C70_epc_prefix, C70_iso17365, C70_iso17363, C70_iso_prefix: for every valid set of fields. Violated for fields that fit no tag (C70_refuted, exact in C70_epc_error_dropped): no error is reported, the identifier is the empty string.",
  "status": "partial"
 },
 "C71": {
  "note": "C71_pc: exact. C71_bytes: exact on identifiers, and any other text gives the empty identifier. Violated (C71_refuted): makeByteID returns nil in place of the error.",
  "status": "partial"
 },
 "C72": {
  "note": "C72_tag_and_filters_partial, C72_run_partial: for GIAI references that fit their bits and no GRAI file drawn twice. Violated otherwise (C72_refuted): a GIAI reference drawn too large gives an empty line, and a GRAI file drawn twice ends the program (always: C72_clash).",
  "status": "partial"
 },
 "C73": {
  "note": "C73_filter_text: exact text; C73_filter_text_identifies for arbitrary characters.",
  "status": "proved"
 },
 "C74": {
  "note": "C74_list, C74_patricia, C74_legacy in full (histories unrestricted); C74_splay_partial for trees that had a subscription at the start. Violated otherwise (C74_refuted): Dump of a splay tree without subscriptions dereferences a nil filter. %q is modelled exactly for bytes below 127 only. C74_exactly_partial: that is the only case, after any history.",
  "status": "partial"
 },
 "C75": {
  "note": "C75_byte_subscriptions for any nesting; C75_converted for the result of ToByteSubscriptions.",
  "status": "proved"
 },
 "C76": {
  "note": "C76_first_group: the exact answer on every list (the first group in dictionary order, or none exists); C76_shared. Violated: the prefix is not the one the majority shares (C76_majority_refuted). C76_exactly_partial says on which lists it is.",
  "status": "partial"
 },
 "C77": {
  "note": "C77_grouping: total, lossless, nothing but URI-less group nodes added, offsets and nesting consistent, no group left; C77_grouping_subs for converted subscriptions. Violated: an extension of another subscription's prefix may stay beside it (C77_nesting_refuted). C77_exactly_partial says for which maps this does not happen.",
  "status": "partial"
 },
 "C78": {
  "note": "C78_patricia_partial, C78_splay_partial: true exactly when the wanted tree is contained in the other; C78_both_ways. Violated as equality (C78_equal_refuted): superfluous nodes go unnoticed.",
  "status": "partial"
 },
 "C79": {
  "note": "C79_six_bit_text, C79_six_bit_readable (characters 32 to 95), C79_padding, C79_in_slice. Outside that alphabet texts collide (C79_lower_case_refuted).",
  "status": "proved"
 },
 "C80": {
  "note": "C80_tool_partial for every argument. Violated without an argument (C80_no_argument_refuted): the test of the argument count is off by one and the tool crashes.",
  "status": "partial"
 },
 "C81": {
  "note": "Go 1.23's encoding/csv is modelled as a character machine and proved equal to a grammar of the format. Opening and reading the file can fail in other ways that are not modelled.",
  "status": "proved"
 },
 "C82": {
  "note": "False: a quote inside an unquoted field crashes the program whatever the other lines are (C82_bad_line_refuted). True for files without quotes.",
  "status": "partial"
 },
 "C83": {
  "note": "Proved when no prefix is asked for by two addresses; false otherwise (C83_refuted). C83_exactly_partial is the exact boundary for every file and tag: right in every iteration order exactly when each address that asks for the tag has a matching prefix that nobody else asks for.",
  "status": "partial"
 },
 "C84": {
  "note": "False: a pattern with a capital letter in 'urn:epc:pat:' is loaded and then ignored (C84_capitals_ignored_refuted), one with a capital letter in the name of its scheme matches every tag (C84_type_refuted). Proved for the values (C84_values_partial); C84_exactly_partial is the exact rule for the names.",
  "status": "partial"
 },
 "C85": {
  "note": "False for the last filter: main does not wait for the writer, so one filter may be lost (C85_refuted). Proved: at any time all sent filters but at most the last are in the file, in order, and at the end all filters of all sets made were sent. C85_exactly_partial: the file is complete if and only if the writer holds no filter.",
  "status": "partial"
 },
 "C86": {
  "note": "For any number of workers and any capacity, both at least one.",
  "status": "proved"
 },
 "C87": {
  "note": "Proved when no two parameters share a file and no file was there before. Otherwise filters may be sent twice, files may be mixed and the program may stop (C87_refuted_twice, C87_refuted_mixed, C87_refuted_fatal). C87_exactly_partial: these limits are exact, for any number of workers.",
  "status": "partial"
 },
 "C88": {
  "note": "False: the number of rounds may be one less by rounding (C88_refuted_rounding), and each round sends 31 filters. Proved: for up to 2^40 subscriptions both numbers of rounds are the requested shares rounded down, or one less, the latter only when the share is a whole number of rounds (C88_rounds_partial); exactly 31 filters for each round, at most 20 different ones for each round and one more.",
  "status": "partial"
 },
 "C89": {
  "note": "False for 17365 whenever both kinds of rounds occur (C89_refuted); the exact condition for a match is proved for all schemes.",
  "status": "partial"
 },
 "C90": {
  "note": "For the parameters main makes; the digits and letters of the names are as drawn.",
  "status": "proved"
 },
 "C91": {
  "note": "C91_percentage, C91_hundred: the formula, for all 64-bit counts. C91_recorded_partial: in every interleaving in which no search is being counted while its monitor publishes. Violated otherwise (C91_refuted: 200). C91_exactly_partial: in every interleaving (counts below 2^53) a recorded value is never negative, and a percentage exactly when not more matches than events were published.",
  "status": "partial"
 },
 "C92": {
  "note": "Violated for every engine (C92_patricia_refuted, C92_splay_refuted: answers change without an error; lists are appended to, the text engine keeps what it had, C24_nothing_stored). For each engine the exact condition under which it holds is proved (C92_*_exactly_partial); on a fresh engine it is C21-C25 (C92_fresh).",
  "status": "partial"
 },
 "C93": {
  "note": "Proved for every pattern without a minus sign in front of a field, whatever else it is (C93_bits_partial), and with it the list engine's exactness for all such subscriptions and histories (C93_list_search_partial). Violated by negative filter values (C93_negative_refuted): such a subscriber is told of every tag. C93_exactly_partial: bits exactly when the filter value of the (EPC) pattern does not read as a negative number.",
  "status": "partial"
 },
 "C94": {
  "note": "Violated: for any two engines whose names differ in length a search can combine the address of one with the length of the other, find no engine and crash (C94_switch_refuted), the listener and the ticker together can leave such a string behind for good (C94_for_good_refuted), and so can the first selection if the length is stored first (C94_first_refuted). C94_loaded is the exact outcome for every pair of words. Proved: a search is never answered by an engine that was neither selected nor being assigned (C94_no_other_engine_partial), names of equal length are safe under any number of concurrent assignments (C94_same_length_partial), so is a first selection that stores the address first (C94_first_partial), and so is a search with no assignment under way (C94_quiet_partial).",
  "status": "partial"
 },
 "C95": {
  "note": "Proved for all engines with filters; the counting searches are shown to be the modelled searches (C95_counted).",
  "status": "proved"
 },
 "C96": {
  "note": "Proved where searches leave the subscriptions alone (each prefix has one chain of extensions, the exact limit of C13). With several incomparable extensions of a prefix both claims are false: the number of comparisons exceeds the bound by any amount (C96_adapts_refuted), and a tag searched again may cost more than its URIs and one (C96_again_refuted).",
  "status": "partial"
 },
 "C97": {
  "status": "partial",
  "note": "Each of the three claims is refuted by a schedule (C97_better_refuted, C97_told_refuted, C97_last_refuted). They hold when the listener and the ticker are never both at work (C97_apart_partial). For all interleavings: a lesser engine is only put in place right after the ticker's change (C97_better_partial), a party's message names its own change or a later one of the other party (C97_message_partial), every change is followed by a message of the party that made it (C97_answered), only proposed engines are ever selected or told (C97_names), the name is never lost (C97_selected), an undisturbed tick sets things right (C97_tick), and an undisturbed announcement selects and tells the engine exactly if none or a lesser one was selected (C97_announced)."
 },
 "C98": {
  "status": "partial",
  "note": "Violated twice: the end of the connection ends the program in the middle of a report (C98_refuted), and a keepalive behind two reports waits for the first one's searches (C98_waits_refuted). C98_in_order: order and account at any moment. C98_at_the_end_partial: all replies are written and only events of the last report can be missing; C98_complete_partial: exactly when nothing is missing. C98_waits_partial: the loop waits exactly when two reports more have come than have been worked off. C98_goes_on: no deadlock, and a bound on the number of steps."
 },
 "C99": {
  "status": "partial",
  "note": "Violated when main stalls: with capacity + 2 messages waiting, a search can be stuck until main receives (C99_refuted, C99_stuck). Up to capacity + 1 messages every search is answered without main (C99_without_main_partial), in particular if no more were made than that (C99_bounded_partial)."
 }
}