{
 "C01": "MFilter. A pattern padded to byte boundaries is compared bit by bit; the xor/or test of one byte is shown equal to eight bit tests by a finite check, bytes by induction.",
 "C02": "MFilter. Same lemma, following the index that first leaves the slice.",
 "C03": "MFilter. Transparency as a statement about all identifiers, by C01.",
 "C04": "MFilter. Case analysis on the byte index, loop by induction.",
 "C05": "MEngine.lcp. Minimum and maximum in the lexicographic order bound every string; their common prefix is the common prefix of all.",
 "C06": "MEngine.get_next_bit. Bit i of the big-endian bit list.",
 "C07": "MList. Induction over the list; histories by an abstraction to (prefix, URI) pairs.",
 "C08": "MList. Abstraction to pairs without repetition; every history.",
 "C09": "MPatricia. A trie denotes its (path, URI) pairs; build is shown to hold exactly the subscriptions but the common prefix, search to walk them.",
 "C10": "MPatricia. Invariant over histories: well-formed trie, content as a finite map; top_down (Spec) says which additions are safe. The nodes of the trie are then characterised by the prefixes alone (SpecPlaces, PPlaces), by induction over building, adding and removing, which gives exact conditions on histories.",
 "C11": "MPatricia. Same invariant, for deletions. Exact condition by the characterisation of the nodes in PPlaces.",
 "C12": "MSubs.link_subset and MSplay. Nesting is a forest whose flattening is the subscription set; the first search walks it.",
 "C13": "MSplay. Splaying only moves nodes: invariant snarrow/chain condition over every sequence of searches.",
 "C14": "MSplay. Invariant over calm histories (Spec). Exactness by counting the reported URIs for a long enough tag below the prefix (PSplayCalm).",
 "C15": "MSplay. Same invariant, for deletions. Exactness as for C14.",
 "C16": "Corollary of C07, C09, C12, C13.",
 "C17": "MLegacy on MSlice (slices with shared backing arrays). Search is a fold over the map in any iteration order.",
 "C18": "MLegacy against MList, through the EPC fields (SpecEpc).",
 "C19": "MLegacy.legacy_add on a heap of arrays; ownership invariant.",
 "C20": "MLegacy.legacy_del with the in-place shift of append(s[:i], s[i+1:]...).",
 "C21": "MGob token streams; induction over the list.",
 "C22": "MGob; gpruned describes what the decoder rebuilds from any trie.",
 "C23": "MGob; induction over the tree.",
 "C24": "MGob; exact behaviour of the loop that never stores.",
 "C25": "MGob and MSubs.sub_clone; MSlice for independence of the copy.",
 "C26": "GoBase.sort_strings; sortedness plus permutation determines the result.",
 "C27": "MSubs.to_byte_subs as a fold over stored pairs, any iteration order.",
 "C28": "MSubs.pattern_prefix; exact set of patterns that become the empty prefix.",
 "C29": "MSubs.link_subset; fuel shown sufficient, flattening equals the input.",
 "C30": "MSubs.load_csv over the parsed records (C81 for the text).",
 "C31": "MComposition; induction over the members.",
 "C32": "MComposition; the wildcard region by position.",
 "C33": "MComposition.group_sequential; runs of consecutive integers.",
 "C34": "MTdtCore: each shift and mask transcribed; spec is the big-endian bit field. Byte expressions are proved equal to bit slices once per partition.",
 "C35": "As C34.",
 "C36": "As C34.",
 "C37": "As C34.",
 "C38": "MTdtCore; every index and every Repeat count accounted for.",
 "C39": "MTdtCore; classification of all inputs.",
 "C40": "MScheme composed with MTdtCore.",
 "C41": "MScheme; table rows as premises (in_table), other lengths by bit counting.",
 "C42": "MScheme and MTdtCore six-bit text; induction over characters.",
 "C43": "MTdtIso, MScheme; the weighted sum of the standard (SpecIso).",
 "C44": "MTdtEpc against the fields of the identifier (SpecEpc) through C01.",
 "C45": "MTdtIso against the six-bit text (SpecIso) through C01.",
 "C46": "MScheme prefix mode against MTdtEpc/MTdtIso.",
 "C47": "C07, C40, C44 composed: pattern fields to reported URIs.",
 "C48": "MFactory: transition system of all goroutines of factory, generators, monitors and main; invariant over every interleaving.",
 "C49": "MFactory; invariant on the deploy step.",
 "C50": "MFactory; invariant on the selection step.",
 "C51": "MFactory; the management messages reach no engine.",
 "C52": "MGenerator (looplab/fsm assumption) and MFactory.",
 "C53": "MFactory; conservation of counts over every interleaving.",
 "C54": "MStat; the batch as a growing list.",
 "C55": "MMain; a byte stream cut into arbitrary reads.",
 "C56": "MMain; fold over the answers of a batch.",
 "C57": "MGob; every proper prefix of the token list.",
 "C58": "MGob; induction over nested subscriptions.",
 "C59": "MGob; first token.",
 "C60": "MSystem: MFactory instantiated with the four engines; C16, C18 transported along the invariant of PSystem.",
 "C61": "C60 with C40 and C44.",
 "C62": "MFactory; accounting of channel contents.",
 "C63": "MFactory; progress: from each reachable state a search can be completed by its own steps and those of the monitors.",
 "C64": "MFactory; history of measured values.",
 "C65": "MFactory; history of announcements.",
 "C66": "MStat with MFactory's measured throughputs.",
 "C67": "MStat; names and numbers.",
 "C68": "MMain; replies per complete message.",
 "C69": "MMain, MSystem and the encoders composed.",
 "C70": "MScheme.make_epc/make_iso, MTools readers.",
 "C71": "MTools; text readers against SpecTools.",
 "C72": "MTools.gendataset with arbitrary draws.",
 "C73": "MDump, MFilter.fo_to_string; cutting a text at its last bracket.",
 "C74": "MDump; an indented text determines its tree (outline), and every history keeps the tree printable.",
 "C75": "MDump; same outline argument, nested induction.",
 "C76": "MEngine, MGroup; induction on the length of the strings, groups of the tails.",
 "C77": "MGroup; loop invariant (a grouped key is extended by no other key and starts no further group), then the linking theorem of C29.",
 "C78": "MHelpers; structural induction.",
 "C79": "MScheme, MTdtIso, MHelpers; injectivity by a finite check per character.",
 "C80": "MHelpers; direct.",
 "C81": "MCsv (the reader as a character machine), SpecCsv (the format as a grammar); both directions by induction.",
 "C82": "MCsv; induction over the text.",
 "C83": "Composition of C81, C30, C27 and C07.",
 "C84": "MSubs.pattern_prefix; counting colons.",
 "C85": "MDataset.dstep: labelled transitions of main, workers and writer; invariant of the lines sent, held and written.",
 "C86": "MDataset; a measure that falls in every step, and progress in every reachable state.",
 "C87": "MDataset with files, os.Stat, os.Create and partial writes; composed with C72.",
 "C88": "MDataset.main_params, match_repeat and mismatch_repeat with SpecFloat; relative rounding errors of the three operations (Flocq, PFloat4); counting.",
 "C89": "MDataset.round_params; exact criterion for a filter line to match a tag.",
 "C90": "MTools.file_of; joining with slashes is injective on texts without slashes.",
 "C91": "MStat.percent on IEEE floats; invariants of the factory runs (matches counted against events); rounding with Flocq.",
 "C92": "MRestore: decoding as a function of the tree that is there; the overlay of two trees by induction; equality with MGob on an empty engine for all data.",
 "C93": "Every encoder of a field yields binary digits unless the field is signed; by cases over the six types; the filter of any other text is empty and passes everything.",
 "C94": "MWord: a string as an address and a length, each accessed in one step; which loads give a name (no name is a prefix of another); schedules for the violations; an invariant over all interleavings for names of one length.",
 "C95": "Searches that also count the calls of Match (MEffort), shown equal to the searches; induction over the trees; for the fresh trie each compared node is charged to a subscription off the path.",
 "C96": "A search is a move-to-front step on the outer chain; amortised analysis with the number of inverted pairs as potential.",
 "C97": "MSelect: one access to the name per step of the listener or the ticker. Invariants over all interleavings for which names can appear, what a decision rests on and which message is still owed; schedules for the three violations; lemmas that an undisturbed announcement or tick is the single step of MFactory.",
 "C98": "MPipe: the receive loop and the searching goroutine with the unbuffered channel between them, on top of MMain's reading of messages. An invariant that accounts for every message and event; a measure for termination.",
 "C99": "MFactory; messages on their way are counted (SpecJam); a search is finished by its own goroutines as long as no more than the channel's capacity plus one are; a jam is an invariant of every step but main's receiving."
}