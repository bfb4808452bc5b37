{
 "claims": [
  {
   "property": "C01",
   "status": "proved",
   "theorems": [
    "C01_get_nibble",
    "C01_get_nibble_range",
    "C01_get_next_nibbles",
    "C01_truncate_front",
    "C01_truncate_back",
    "C01_pop_next_nibble_front",
    "C01_pop_next_nibble_back",
    "C01_pop_nibbles_front",
    "C01_pop_nibbles_back",
    "C01_push_nibble_front",
    "C01_push_nibble_back",
    "C01_push_nibbles_front",
    "C01_merge_nibble",
    "C01_merge_nibbles",
    "C01_split_at_idx",
    "C01_split_at_idx_prefix",
    "C01_split_at_idx_postfix",
    "C01_reverse",
    "C01_from_nibble",
    "C01_is_empty",
    "C01_full_width_refuted"
   ],
   "note": "All operations, both profiles, up to 127 nibbles (documented limit 64). C01_full_width_refuted shows the struct's 128th nibble is not usable."
  },
  {
   "property": "C02",
   "status": "partial",
   "theorems": [
    "C02_debug_partial",
    "C02_get_nibble_partial",
    "C02_pop_empty_partial",
    "C02_pop_back_empty_debug_partial",
    "C02_split_release_partial",
    "C02_append_partial",
    "C02_merge_partial",
    "C02_from_nibble_partial",
    "C02_find_diff_equal_partial",
    "C02_release_refuted",
    "C02_refuted",
    "C02_debug_exact",
    "C02_release_exact",
    "C02_release_value",
    "C02_append_exact",
    "C02_views_exact"
   ],
   "note": "False as stated: in Release builds out-of-range reads and pops return values (C02_release_refuted, C02_refuted, with the value in C02_release_value). Proved instead: exactly which calls panic, for every key and every argument, in Debug builds (C02_debug_exact: precisely the out-of-range ones), in Release builds (C02_release_exact: by the distance modulo 2^62), and the append/compare panics in both (C02_append_exact)."
  },
  {
   "property": "C03",
   "status": "proved",
   "theorems": [
    "C03_find_diff",
    "C03_find_diff_equal",
    "C03_lcp_spec",
    "C03_identical"
   ],
   "note": "Both differing-index functions and the identical-prefix test."
  },
  {
   "property": "C04",
   "status": "proved",
   "theorems": [
    "C04_hex_prefix",
    "C04_injective"
   ],
   "note": "Equal to Yellow Paper HP for every key up to 127 nibbles, injective."
  },
  {
   "property": "C05",
   "status": "partial",
   "theorems": [
    "C05_roundtrip_partial",
    "C05_leaf_refuted",
    "C05_rejects_partial",
    "C05_empty_refuted"
   ],
   "note": "False as stated: every leaf encoding decodes to the key plus nibbles 1,0 (C05_leaf_refuted) and the empty input panics. Proved: extension encodings round trip, exact description of the decoder on every byte string."
  },
  {
   "property": "C06",
   "status": "proved",
   "theorems": [
    "C06_to_nibbles",
    "C06_byte_padded",
    "C06_injective"
   ],
   "note": "Any width; digits without leading zeros, padded variant, injectivity."
  },
  {
   "property": "C07",
   "status": "partial",
   "theorems": [
    "C07_from_bytes_be_partial",
    "C07_from_bytes_le_partial",
    "C07_rejects_partial",
    "C07_limit_refuted",
    "C07_h256_partial",
    "C07_bytes_be_partial"
   ],
   "note": "The documented 32 byte limit is not enforced, 33 bytes are accepted (C07_limit_refuted). Everything else proved, with the limit 33."
  },
  {
   "property": "C08",
   "status": "proved",
   "theorems": [
    "C08_format",
    "C08_roundtrip",
    "C08_parse",
    "C08_printed",
    "C08_accepted",
    "C08_rejected"
   ],
   "note": "Formatting up to 128 nibbles, round trip, exact parser behaviour; C08_printed, C08_accepted and C08_rejected spell the characters out."
  },
  {
   "property": "C09",
   "status": "proved",
   "theorems": [
    "C09_equality",
    "C09_order",
    "C09_total_order"
   ],
   "note": "Equality is sequence equality, order is shortlex, total order laws."
  },
  {
   "property": "C10",
   "status": "proved",
   "theorems": [
    "C10_fixed_length",
    "C10_prefix_free"
   ],
   "note": "All histories of insert/extend/delete/get over keys of one common length (and over any prefix-free key set), both profiles, no bound on the history."
  },
  {
   "property": "C11",
   "status": "proved",
   "theorems": [
    "C11_reachable_invariant",
    "C11_get_stored",
    "C11_items_get"
   ],
   "note": "For every trie reachable by successful operations, any key lengths, both profiles; also stated with items()."
  },
  {
   "property": "C12",
   "status": "partial",
   "theorems": [
    "C12_refuted",
    "C12_release_refuted",
    "C12_long_partial",
    "C12_debug_exact_partial",
    "C12_exact_partial",
    "C12_sound_partial"
   ],
   "note": "False as stated (C12_refuted, C12_release_refuted): a strict prefix or extension of a stored key can be 'found', and Debug panics on keys shorter than an extension. Proved: the exact answer of both builds to every key in canonical tries, in terms of the stored keys (C12_exact_partial); true for keys at least as long as every stored key without a stored strict prefix; soundness for all reachable tries."
  },
  {
   "property": "C13",
   "status": "partial",
   "theorems": [
    "C13_refuted",
    "C13_insert_exact_partial",
    "C13_insert_one_key_partial",
    "C13_insert_partial",
    "C13_empty_value_refuted"
   ],
   "note": "False as stated (C13_refuted): a key ending inside an extension is written to another key; empty values do not persist. Proved: exact condition on the stored keys under which insert is right (iff), and one-key-changes for all reachable tries."
  },
  {
   "property": "C14",
   "status": "partial",
   "theorems": [
    "C14_three_ways",
    "C14_panics_iff",
    "C14_loses_iff",
    "C14_refuted_lost",
    "C14_refuted_panic",
    "C14_delete_exact_partial",
    "C14_delete_partial",
    "C14_delete_any_partial"
   ],
   "note": "False as stated (C14_refuted_lost, C14_refuted_panic). Proved: exact condition on the stored keys (iff) under which delete is right; the three ways a delete of a stored key of a canonical trie can end, each decided by the stored keys (C14_three_ways, C14_panics_iff, C14_loses_iff); and what holds in all reachable tries."
  },
  {
   "property": "C15",
   "status": "partial",
   "theorems": [
    "C15_three_ways",
    "C15_refuted",
    "C15_absent_partial",
    "C15_exact_partial",
    "C15_damage_partial"
   ],
   "note": "False as stated (C15_refuted): Some([]) for absent keys at branches, and another key's value deleted below extensions. Proved: exactly when the claim holds, in terms of the stored keys (C15_exact_partial); for every absent key of a canonical trie, what delete does (C15_three_ways); and all that a successful delete of an absent key can do in any reachable trie (C15_damage_partial)."
  },
  {
   "property": "C16",
   "status": "proved",
   "theorems": [
    "C16_items",
    "C16_keys_values"
   ],
   "note": "Every reachable trie, both profiles, including termination of the iterator loop."
  },
  {
   "property": "C17",
   "status": "proved",
   "theorems": [
    "C17_histories",
    "C17_canonical"
   ],
   "note": "Histories over prefix-free keys; also all canonical tries including hash nodes and nested keys."
  },
  {
   "property": "C18",
   "status": "proved",
   "theorems": [
    "C18_insert_delete",
    "C18_histories"
   ],
   "note": "Fresh means prefix-incomparable with the stored keys (comparable fresh keys fail through C13/C14). Canonical tries, hash nodes allowed."
  },
  {
   "property": "C19",
   "status": "proved",
   "theorems": [
    "C19_canonical",
    "C19_history",
    "C19_fixed_length",
    "C19_items",
    "C19_prefix_keys_refuted",
    "C19_any_keys"
   ],
   "note": "For every hash function with 32-byte outputs, canonical tries and every prefix-free history; keys of any lengths in every order in which the contents are right (C19_any_keys, with the criterion of C34_exact_partial); specification checked against the Ethereum test vector 'dogs'. C19_prefix_keys_refuted shows that outside this scope (deleting a key that is a prefix of another) the hash can be wrong."
  },
  {
   "property": "C20",
   "status": "proved",
   "theorems": [
    "C20_hiding_keeps_root",
    "C20_small_subtree"
   ],
   "note": "hides = any set of subtrees with encodings of at least 32 bytes replaced; C20_small_subtree is the counterexample for smaller ones."
  },
  {
   "property": "C21",
   "status": "proved",
   "theorems": [
    "C21_binding"
   ],
   "note": "For tries without hash nodes; the collision is among the encodings of their nodes."
  },
  {
   "property": "C22",
   "status": "proved",
   "theorems": [
    "C22_root_hash",
    "C22_batch_root_hash"
   ],
   "note": "Both profiles, any keys; single subsets and batches, for every hash function with 32-byte outputs."
  },
  {
   "property": "C23",
   "status": "proved",
   "theorems": [
    "C23_requested",
    "C23_other"
   ],
   "note": "Both profiles; the requested part needs no well-formedness at all."
  },
  {
   "property": "C24",
   "status": "partial",
   "theorems": [
    "C24_filled",
    "C24_release_exact",
    "C24_exact",
    "C24_fixed_length",
    "C24_order_irrelevant",
    "C24_short_key_refuted"
   ],
   "note": "The subset is exactly the pruned trie in debug builds, and in release builds unless a key ends inside an extension node; C24_short_key_refuted shows that case keeps extra nodes in release builds, and C24_release_exact says exactly which: the key counts as if its rest were zeros."
  },
  {
   "property": "C25",
   "status": "partial",
   "theorems": [
    "C25_short_key_refuted",
    "C25_errors_partial",
    "C25_fixed_length",
    "C25_debug_exact",
    "C25_error_key",
    "C25_error_names"
   ],
   "note": "Debug builds panic on a key that ends inside an extension node (C25_short_key_refuted). Everything else of the claim is proved: release builds completely, debug builds with the exact condition."
  },
  {
   "property": "C26",
   "status": "partial",
   "theorems": [
    "C26_release_exact_partial",
    "C26_refuted",
    "C26_supersets_partial",
    "C26_success_partial",
    "C26_first_error_partial",
    "C26_first_panic_partial",
    "C26_first_list_partial",
    "C26_exact_partial",
    "C26_independent_partial"
   ],
   "note": "False as stated (C26_refuted): marks are not cleared below the children of the root. Proved: exact description of what a batch returns, in release builds for keys of any lengths; the batch succeeds iff all single calls do, the requested values and the root hash are kept, and equality when lists use different root children."
  },
  {
   "property": "C27",
   "status": "proved",
   "theorems": [
    "C27_insert",
    "C27_extend",
    "C27_get"
   ],
   "note": "Insert and extend, both profiles, any well-formed trie and entry; get on a partial trie gives the full trie's value or None."
  },
  {
   "property": "C28",
   "status": "partial",
   "theorems": [
    "C28_refuted",
    "C28_delete_partial",
    "C28_exact_partial",
    "C28_local_partial",
    "C28_history_partial"
   ],
   "note": "False as stated: deleting next to a hidden leaf or extension gives a different root hash (C28_refuted). Proved when the merge does not meet a hidden leaf or extension, and, up to hash collisions, only then (C28_exact_partial); the deleted value always agrees. C28_local_partial and C28_history_partial need only what the partial trie itself shows: no collapse meets a Hash node."
  },
  {
   "property": "C29",
   "status": "partial",
   "theorems": [
    "C29_clone_refuted",
    "C29_subtrie_refuted",
    "C29_assign_refuted",
    "C29_make_refuted",
    "C29_clones_partial",
    "C29_uncloned_partial",
    "C29_discipline_partial",
    "C29_same_partial"
   ],
   "note": "False as stated: a clone shares the root cell of the original, so a hash cached for the changed clone is returned for the original (C29_clone_refuted); also for a node taken out of a trie (C29_subtrie_refuted), for a handle that was made a child of a node built by hand and is then changed (C29_make_refuted), and for an assignment through DerefMut (C29_assign_refuted). Proved for all histories without handles for inner nodes, without handles that become children, and without subsets for no keys (C29_clones_partial), for all histories without clones (C29_uncloned_partial), and under a discipline per handle, which allows nodes built by hand from handles that are not changed afterwards (C29_discipline_partial)."
  },
  {
   "property": "C30",
   "status": "proved",
   "theorems": [
    "C30_threads",
    "C30_readers",
    "C30_finishes",
    "C30_fair"
   ],
   "note": "Every schedule, any number of threads. Each access to a lock is one atomic step. Threads that only read may start from any disciplined history, threads that change their clones from any tame one."
  },
  {
   "property": "C31",
   "status": "proved",
   "theorems": [
    "C31_equal_iff",
    "C31_standard_equal_iff",
    "C31_equivalence",
    "C31_equal_hashes"
   ],
   "note": "For both trie types. Equal hashes of equal handles under the discipline of C29."
  },
  {
   "property": "C32",
   "status": "proved",
   "theorems": [
    "C32_unchanged",
    "C32_contents"
   ],
   "note": "For all histories; C32_unchanged for arbitrary cache contents."
  },
  {
   "property": "C33",
   "status": "proved",
   "theorems": [
    "C33_delete_panics_iff",
    "C33_get",
    "C33_insert_panics",
    "C33_delete_panics",
    "C33_insert_value_panics_iff",
    "C33_insert_hash_panics_iff"
   ],
   "note": "get gives None; insert/delete panic below a hash node; exact panic condition for inserting values and hashes, and for deleting any key."
  },
  {
   "property": "C34",
   "status": "partial",
   "theorems": [
    "C34_spaced_partial",
    "C34_short_first_partial",
    "C34_order_exact_partial",
    "C34_exact_partial",
    "C34_in_time",
    "C34_extend_app",
    "C34_order_refuted",
    "C34_from_iter_partial",
    "C34_order_partial"
   ],
   "note": "Order independence is false for keys that are prefixes of others (C34_order_refuted). Proved: for distinct keys it holds if and only if no key is a strict prefix of two others that continue it with the same nibble (C34_order_exact_partial); for one given order, the contents are right if and only if no key comes after two or more longer keys that all continue it with the same nibble (C34_exact_partial; with repeated keys, if), in particular with shorter keys first; extend over append holds for all inputs."
  },
  {
   "property": "C35",
   "status": "proved",
   "theorems": [
    "C35_exact",
    "C35_fits",
    "C35_totals",
    "C35_entries",
    "C35_compare"
   ],
   "note": "For every trie whose counts and depth sums are below 2^64, in particular every trie of less than 2^32 nodes. The averages are stated as f32 quotients (Coq's SpecFloat). Text output: C48."
  },
  {
   "property": "C36",
   "status": "partial",
   "theorems": [
    "C36_equal",
    "C36_types_refuted",
    "C36_root_partial",
    "C36_extensions_partial",
    "C36_sound_partial",
    "C36_none_iff_partial",
    "C36_panic_refuted",
    "C36_panic_hash_refuted",
    "C36_missed_refuted"
   ],
   "note": "False: panics when node types differ (C36_types_refuted, C36_panic_refuted, C36_panic_hash_refuted), and misses differences below extensions with different nibbles (C36_missed_refuted). Proved: no report for equal hashes, reports are real and describe the nodes, exact case table for tries as the operations build them."
  },
  {
   "property": "C37",
   "status": "partial",
   "theorems": [
    "C37_panic_refuted",
    "C37_stored_refuted",
    "C37_absent_refuted",
    "C37_path_partial",
    "C37_exact_partial",
    "C37_no_panic_partial",
    "C37_output",
    "C37_mask"
   ],
   "note": "False: panics for keys that end at a branch (C37_panic_refuted), extension nodes do not use up the key, so stored keys are missed with a wrong path (C37_stored_refuted), and absent keys can be reported as found (C37_absent_refuted). Proved: exact behaviour for every trie and key, correctness without extension nodes on the way, output well-formed, child masks."
  },
  {
   "property": "C38",
   "status": "partial",
   "theorems": [
    "C38_prim",
    "C38_u256",
    "C38_u128_refuted",
    "C38_u128_release_refuted",
    "C38_u512_refuted",
    "C38_injective_partial",
    "C38_bytes"
   ],
   "note": "False for U512 (always panics: C38_u512_refuted) and U128 (panics in Debug; Release writes 16 extra zero bytes: C38_u128_refuted, C38_u128_release_refuted). Proved for u8 to u64 and U256."
  },
  {
   "property": "C39",
   "status": "proved",
   "theorems": [
    "C39_empty_hash",
    "C39_history",
    "C39_prefix_free",
    "C39_any_keys",
    "C39_only_empty"
   ],
   "note": "With the executable Keccak-256."
  },
  {
   "property": "C40",
   "status": "proved",
   "theorems": [
    "C40_partial_trie_binding",
    "C40_get_sound",
    "C40_contents"
   ],
   "note": "Added while modelling: binding for partial tries."
  },
  {
   "property": "C41",
   "status": "partial",
   "theorems": [
    "C41_depth_always_zero",
    "C41_depth_refuted"
   ],
   "note": "False (C41_depth_refuted); C41_depth_always_zero describes the actual behaviour."
  },
  {
   "property": "C42",
   "status": "proved",
   "theorems": [
    "C42_outputs",
    "C42_batch_outputs",
    "C42_roots",
    "C42_roots_deletes",
    "C42_history"
   ],
   "note": "Histories of any length, hash nodes in the full trie allowed. C42_roots_deletes adds deletes that do not merge a hidden leaf or extension (C28 shows why this is needed); C42_history states everything from the empty trie against a plain map and the Yellow Paper root."
  },
  {
   "property": "C43",
   "status": "partial",
   "theorems": [
    "C43_extend_refuted",
    "C43_clones_partial",
    "C43_uncloned_partial",
    "C43_discipline_partial",
    "C43_no_panics",
    "C43_extend_prefix",
    "C43_threads"
   ],
   "note": "False as stated: an extend that panics does not clear the cached hash of the root (C43_extend_refuted). Proved for all programs without handles for inner nodes and subsets for no keys, with any panics; for programs without clones in which no extend panics; in general for a discipline per handle; and for threads."
  },
  {
   "property": "C44",
   "status": "partial",
   "theorems": [
    "C44_nibbles",
    "C44_roundtrip",
    "C44_histories",
    "C44_injective",
    "C44_loaded",
    "C44_handle_contents",
    "C44_handle_loads",
    "C44_copies",
    "C44_handle_hash_partial",
    "C44_equal_refuted",
    "C44_forged_refuted",
    "C44_malformed_refuted"
   ],
   "note": "Round trip, injectivity and absence of panics proved for every trie and every data. False parts: equal handles may be saved as different data since cached hashes are part of it (C44_equal_refuted); foreign data may hold wrong hashes (C44_forged_refuted) or keys on which get panics (C44_malformed_refuted). Hashes of loaded handles are right in all programs without handles for inner nodes and assignments, with copies by save and load (C44_copies), and under the discipline of C29. Down to serde's data model; formats are taken to be lossless."
  },
  {
   "property": "C45",
   "status": "partial",
   "theorems": [
    "C45_contents_partial",
    "C45_equal_partial",
    "C45_clone_refuted"
   ],
   "note": "False as stated, through C29: a stale hash shared by a clone hides a difference (C45_clone_refuted). Proved under the discipline of C29; C29's and C30's theorems cover comparisons anywhere in histories and threads."
  },
  {
   "property": "C46",
   "status": "proved",
   "theorems": [
    "C46_changes",
    "C46_unchanged",
    "C46_copies",
    "C46_once",
    "C46_root_recomputed"
   ],
   "note": "Handles for inner nodes, nodes built by hand and assignment through DerefMut are left out of the bound (not of C46_once). The constant is not tight. C46_root_recomputed: the hash of the root node itself is never stored, so hash() of an unchanged trie still looks at the children of the root."
  },
  {
   "property": "C47",
   "status": "proved",
   "theorems": [
    "C47_try_into_u256",
    "C47_long_panics",
    "C47_roundtrip",
    "C47_back",
    "C47_h256",
    "C47_num_nibbles",
    "C47_min_bytes"
   ],
   "note": "A key with non-zero unused bits (not well-formed) can panic; a key that claims more than 128 nibbles does (C47_long_panics)."
  },
  {
   "property": "C48",
   "status": "proved",
   "theorems": [
    "C48_builder",
    "C48_plain_key",
    "C48_stats_text",
    "C48_stats_calls",
    "C48_stats_unambiguous",
    "C48_comparison_unambiguous",
    "C48_comparison_lines",
    "C48_query_text",
    "C48_query_unambiguous",
    "C48_default_query",
    "C48_path_text",
    "C48_path_unambiguous",
    "C48_diff_text",
    "C48_diff_unambiguous",
    "C48_decimal"
   ],
   "note": "Derived Debug output: C63. Writing to the formatter does not fail. The text of f32 numbers is any text without line breaks here; C52 has the actual one. C48_stats_text is for tries with fewer than 2^64 nodes."
  },
  {
   "property": "C49",
   "status": "proved",
   "theorems": [
    "C49_narrow",
    "C49_monotone",
    "C49_all_keys"
   ],
   "note": "Both profiles, keys of any lengths (also keys that end inside an extension node)."
  },
  {
   "property": "C50",
   "status": "proved",
   "theorems": [
    "C50_nodes",
    "C50_inserted",
    "C50_history",
    "C50_nested_deletes_refuted",
    "C50_depth",
    "C50_stats_depth"
   ],
   "note": "C50_nested_deletes_refuted shows that deletes of keys that are prefixes of other keys leave branches with one child behind. The recursion depth is the depth of the nodes: all modelled functions on tries recurse structurally."
  },
  {
   "property": "C51",
   "status": "proved",
   "theorems": [
    "C51_no_races",
    "C51_no_deadlock",
    "C51_no_livelock",
    "C51_ends",
    "C51_results",
    "C51_fair",
    "C51_panics"
   ],
   "note": "At the level of single lock operations. A panic does not happen under a lock; parking_lot locks are not poisoned. Also for programs that catch panics (C51_panics). The lock itself (parking_lot) is modelled, not verified."
  },
  {
   "property": "C52",
   "status": "proved",
   "theorems": [
    "C52_text",
    "C52_one_line",
    "C52_averages",
    "C52_shares",
    "C52_report",
    "C52_ratios",
    "C52_average_ratios"
   ],
   "note": "The reports are those of C48 with f32_text for the numbers. C52_text: every f32 is printed as the nearest decimal number (for the rounding of ties see the model)."
  },
  {
   "property": "C53",
   "status": "proved",
   "theorems": [
    "C53_insert",
    "C53_delete",
    "C53_extend",
    "C53_reachable",
    "C53_reading",
    "C53_versions"
   ],
   "note": "Counted in the model: one cell per node. The tries inside StandardTrie have no cells; the same code builds them."
  },
  {
   "property": "C54",
   "status": "proved",
   "theorems": [
    "C54_off",
    "C54_same",
    "C54_same_extend",
    "C54_reachable",
    "C54_malformed_refuted",
    "C54_trail",
    "C54_get_lines",
    "C54_insert_lines",
    "C54_delete_lines",
    "C54_covers",
    "C54_delete_back",
    "C54_delete_count"
   ],
   "note": "Modelled for the nodes of StandardTrie; no log line shows the hash cells of HashedPartialTrie. C54_malformed_refuted: the condition on keys is needed."
  },
  {
   "property": "C55",
   "status": "partial",
   "theorems": [
    "C55_bytes",
    "C55_u256",
    "C55_flags",
    "C55_too_long",
    "C55_too_long_refuted",
    "C55_limit_refuted",
    "C55_subset",
    "C55_subset_key_refuted",
    "C55_handle_same",
    "C55_handle_subset",
    "C55_handle_subsets",
    "C55_handle_any_threads",
    "C55_handle_threads",
    "C55_handle_equal_refuted"
   ],
   "note": "False in two places. The message for a hex-prefix text that is too long has its two fields swapped and the wrong limit (C55_too_long_refuted, C55_limit_refuted). The message for a subset shows only the rest of the key below the hash node (C55_subset_key_refuted). Proved: the exact text of every message, and that it names the input correctly otherwise. For a HashedPartialTrie the text also shows the cell of the hash node, so it can differ between equal tries (C55_handle_equal_refuted); proved: the exact text, alone and with other threads, and that making it changes nothing. The message of Nibbles::from_str comes from another crate."
  },
  {
   "property": "C56",
   "status": "proved",
   "theorems": [
    "C56_before",
    "C56_order",
    "C56_ascending",
    "C56_same_items",
    "C56_next"
   ],
   "note": "Order, ascending for one length, determined by the contents, single calls of next()."
  },
  {
   "property": "C57",
   "status": "partial",
   "theorems": [
    "C57_contents",
    "C57_same",
    "C57_prefix_free",
    "C57_contents_refuted"
   ],
   "note": "False for keys that are prefixes of others (C57_contents_refuted). Proved exactly: for every reachable trie the contents are rebuilt if and only if no key is narrow (C57_contents), and the same trie if and only if it is also in canonical shape (C57_same); in particular for prefix-free keys with any hash nodes."
  },
  {
   "property": "C58",
   "status": "partial",
   "theorems": [
    "C58_insert_partial",
    "C58_get_partial",
    "C58_hash_partial",
    "C58_items_partial",
    "C58_listable",
    "C58_delete_partial",
    "C58_delete_exact",
    "C58_delete_any_partial",
    "C58_items_refuted",
    "C58_delete_refuted"
   ],
   "note": "False: items() and delete panic for keys of 33 bytes that insert accepted (C58_items_refuted, C58_delete_refuted). Proved for every trie built with keys of at most 127 nibbles: insert and get are right; the hash never panics and is the Yellow Paper root in canonical tries; the iterator gives exactly the items before the first longer key and then panics (C58_items_partial), so all items are listed exactly if no stored key is longer than 64 nibbles (C58_listable); a successful delete is right; in canonical tries a delete of a stored key without a stored strict prefix panics exactly if, below some prefix of it, all other keys share more than 64 further nibbles from which it departs (C58_delete_exact)."
  },
  {
   "property": "C59",
   "status": "proved",
   "theorems": [
    "C59_values",
    "C59_clones",
    "C59_snapshot",
    "C59_items",
    "C59_next",
    "C59_open"
   ],
   "note": "HashedPartialTrie. Programs with iterators observe what they would with plain values and lists of items (C59_values, under the discipline of C29 for hashes; C59_clones); the answers of an iterator are those of the trie at the time of opening without any such hypothesis (C59_snapshot, C59_items, C59_next)."
  },
  {
   "property": "C60",
   "status": "proved",
   "theorems": [
    "C60_size",
    "C60_keys",
    "C60_no_larger",
    "C60_batch",
    "C60_new_nodes",
    "C60_new_nodes_batch"
   ],
   "note": "Bound on the nodes of a subset in the number of keys (C60_size, C60_keys) and by the trie itself (C60_no_larger); batches, where the keys of earlier lists count because marks leak (C60_batch, see C26); new nodes of caching tries, counted exactly (C60_new_nodes, C60_new_nodes_batch)."
  },
  {
   "property": "C61",
   "status": "partial",
   "theorems": [
    "C61_roundtrip",
    "C61_built",
    "C61_injective",
    "C61_loaded",
    "C61_handle",
    "C61_handle_contents",
    "C61_histories",
    "C61_handle_histories",
    "C61_cells",
    "C61_no_panic",
    "C61_no_hash",
    "C61_kinds",
    "C61_forms",
    "C61_forms_handle",
    "C61_order",
    "C61_order_handle",
    "C61_twice",
    "C61_limit_refuted",
    "C61_limit_exact",
    "C61_limit_handle_exact",
    "C61_limit_partial",
    "C61_limit_handle_partial",
    "C61_short_keys_partial"
   ],
   "note": "Proved for all documents, except the last part of the last sentence: with serde_json's default limit of 128 the text of a deep trie is refused (C61_limit_refuted: 50 keys of at most 50 nibbles). Which tries are accepted is stated exactly (C61_limit_exact, C61_limit_handle_exact); at most 42 nodes on a way down (31 for caching tries), so keys of at most 41 nibbles, are enough (the _partial theorems)."
  },
  {
   "property": "C62",
   "status": "partial",
   "theorems": [
    "C62_grammar",
    "C62_unique",
    "C62_limit",
    "C62_from_str",
    "C62_same",
    "C62_written",
    "C62_roundtrip",
    "C62_roundtrip_limit_partial",
    "C62_roundtrip_limit_exact",
    "C62_handle_limit_exact",
    "C62_roundtrip_limit_refuted",
    "C62_built",
    "C62_injective",
    "C62_loaded",
    "C62_handle",
    "C62_handle_contents",
    "C62_histories",
    "C62_handle_histories",
    "C62_no_panic",
    "C62_trailing",
    "C62_cut",
    "C62_cut_handle",
    "C62_ascii",
    "C62_ascii_handle",
    "C62_pretty",
    "C62_layout",
    "C62_layout_handle"
   ],
   "note": "Proved, except the last part of the last sentence: with the default nesting limit the text of a deep trie is refused (C62_roundtrip_limit_refuted, the same defect as in C61). Which tries are accepted is stated exactly (C62_roundtrip_limit_exact, C62_handle_limit_exact)."
  },
  {
   "property": "C63",
   "status": "partial",
   "theorems": [
    "C63_api_query",
    "C63_api_query_keys",
    "C63_api_diff",
    "C63_float",
    "C63_float_identifies",
    "C63_float_shortest",
    "C63_float_layout",
    "C63_float_sign",
    "C63_stats",
    "C63_comparison",
    "C63_api_stats",
    "C63_api_comparison",
    "C63_trie",
    "C63_long_panics",
    "C63_same_iff",
    "C63_identifies",
    "C63_api_tries",
    "C63_hidden_bits_refuted",
    "C63_one_line",
    "C63_handle",
    "C63_handle_panics",
    "C63_handle_same_iff",
    "C63_equal_refuted",
    "C63_any_threads",
    "C63_any_threads_identifies",
    "C63_threads",
    "C63_undisturbed",
    "C63_key",
    "C63_value",
    "C63_query",
    "C63_query_output",
    "C63_diff",
    "C63_bytes_error",
    "C63_hp_error",
    "C63_subset_error",
    "C63_handle_subset_error"
   ],
   "note": "The last sentence is false: hash() fills cells that the text of a caching trie shows and == does not look at (C63_equal_refuted). 'The same text means the same data' needs keys without bits above their digits, which is so for all tries that the API makes (C63_api_tries); otherwise the hidden bits are not shown (C63_hidden_bits_refuted, exact condition in C63_same_iff). Keys of more than 128 nibbles, made by setting the fields, panic (C63_long_panics). Everything else is proved; for statistics with names in printable ASCII (C63_stats). Iterators are opaque to callers."
  },
  {
   "property": "C64",
   "status": "proved",
   "theorems": [
    "C64_common_trie",
    "C64_get",
    "C64_values_agree",
    "C64_contents",
    "C64_extend",
    "C64_insert",
    "C64_delete_refuted",
    "C64_history",
    "C64_delete"
   ],
   "note": "For every hash function with 32-byte outputs, both profiles. The condition on deletes (collapse_visible, PartialSpec.v) is needed: C64_delete_refuted deletes one key from two tries with one root hash and gets two root hashes."
  },
  {
   "property": "C65",
   "status": "proved",
   "theorems": [
    "C65_replay",
    "C65_delete",
    "C65_batch",
    "C65_history",
    "C65_neighbour_needed"
   ],
   "note": "For every hash function with 32-byte outputs, both profiles. C65_neighbour_needed is the counterexample without the neighbour (keccak256). A neighbour is sufficient; the exact criterion for one delete is C28_exact_partial."
  },
  {
   "property": "C66",
   "status": "partial",
   "theorems": [
    "C66_get_partial",
    "C66_contents_partial",
    "C66_replay_partial",
    "C66_check",
    "C66_honest",
    "C66_refuted",
    "C66_cached_refuted"
   ],
   "note": "The full claim is false of the code (C66_refuted, every hash function: the loader accepts key parts with bits beyond their nibbles, with which an extension node is encoded like a leaf; C66_cached_refuted: hash() of a loaded HashedPartialTrie is whatever the text says). Proved for all texts whose loaded trie passes the check of WitnessSpec.v, which C66_check shows to be exactly well-formedness; C66_honest: texts of subsets pass it."
  },
  {
   "property": "C67",
   "status": "proved",
   "theorems": [
    "C67_same",
    "C67_exact",
    "C67_inserted",
    "C67_history",
    "C67_any",
    "C67_memory",
    "C67_lookup"
   ],
   "note": "The iterator is modelled again with a counter (IterCost.v; C67_same: its answers are those of the iterator): loop rounds and visited nodes, not machine time. The cost of key arithmetic and of copying a branch's children is constant per step and not counted. C67_exact and C67_memory hold for every trie, the linear bound with 36 steps per item for tries without superfluous branches (as in C50); C67_any has a linear bound with a larger factor for every trie."
  },
  {
   "property": "C68",
   "status": "proved",
   "theorems": [
    "C68_list",
    "C68_contents",
    "C68_sparse_refuted",
    "C68_integers",
    "C68_integers_refuted"
   ],
   "note": "The keys are computed in the model from the RLP of the Yellow Paper specification; the program that calls the trie is part of the specification (ListSpec.v), its calls are the modelled insert, delete, get and from_bytes_be. C68_sparse_refuted: with missing entries a lookup can panic in debug builds; C68_integers: plain integers as keys give the right trie when inserted in order, but (C68_integers_refuted) a lookup beyond the list can find another entry."
  },
  {
   "property": "C69",
   "status": "proved",
   "theorems": [
    "C69_state",
    "C69_binding",
    "C69_build",
    "C69_rebuild"
   ],
   "note": "The state tries of examples/ethereum_trie.rs under any sequence of account and slot writes, removals and reads: no panics, right answers, Yellow Paper storage and state roots; equal state roots mean equal accounts and storage, or a collision among the byte strings hashed. Tries built at once by from_iter (C69_build), equal to those of any history (C69_rebuild). The RLP values are made by the caller and are part of the specification vocabulary (EthSpec.v); cached hashes: C72."
  },
  {
   "property": "C70",
   "status": "proved",
   "theorems": [
    "C70_excerpt",
    "C70_writes",
    "C70_neighbour_needed"
   ],
   "note": "Excerpts (subsets of state trie and storage tries) exist, keep the root, and can run every program on the requested names if removed names have a neighbour among them (C70_excerpt), in particular every program that removes nothing (C70_writes). C70_neighbour_needed shows that the condition cannot be dropped."
  },
  {
   "property": "C71",
   "status": "proved",
   "theorems": [
    "C71_account",
    "C71_slot",
    "C71_honest",
    "C71_get_is_not_enough"
   ],
   "note": "Accounts and slots, present or absent, from received texts that pass the checks of WitnessSpec.v and have the right roots (C71_account, C71_slot); the texts of excerpts are accepted and right (C71_honest). Absence has to be read off delete: C71_get_is_not_enough."
  },
  {
   "property": "C72",
   "status": "proved",
   "theorems": [
    "C72_discipline",
    "C72_uncloned",
    "C72_threads",
    "C72_ethereum",
    "C72_snapshots",
    "C72_panics",
    "C72_same",
    "C72_caught",
    "C72_caught_discipline",
    "C72_caught_threads"
   ],
   "note": "Adaptive programs over handles, under the discipline of C29 (C72_discipline, and C72_panics, C72_same: also the same panics) and for programs that make no second handle for inner nodes (C72_uncloned); the Ethereum program with requests for roots at any time (C72_ethereum). Threads on clones running such programs (C72_threads), among them the Ethereum program from a common state (C72_snapshots). Programs and threads that catch panics and go on: C72_caught, C72_caught_discipline, C72_caught_threads."
  },
  {
   "property": "C73",
   "status": "proved",
   "theorems": [
    "C73_keys",
    "C73_key_ranges",
    "C73_inserts_fixed",
    "C73_inserts_variable",
    "C73_inserts_refuted",
    "C73_hash_nodes",
    "C73_hash_nodes_refuted",
    "C73_equivalency",
    "C73_get",
    "C73_clones",
    "C73_iter",
    "C73_deletion",
    "C73_deletion_refuted",
    "C73_hashes",
    "C73_deletion_hashes",
    "C73_replacing",
    "C73_subsets",
    "C73_stats"
   ],
   "note": "The random number generator is not modelled: the generators are the sets of keys and values they can give, so the theorems hold for every seed and every size. Exact criteria for C73_inserts_fixed, _inserts_variable, _hash_nodes, _equivalency, _get, _iter, _deletion and _stats (the last for less than 2^27 entries); C73_hashes, _deletion_hashes, _replacing give conditions that suffice. Three tests fail for some draws of distinct keys of random length (the _refuted theorems): the API rounds such keys (C34) or panics in debug builds (C07)."
  },
  {
   "property": "C74",
   "status": "partial",
   "theorems": [
    "C74_key",
    "C74_roundtrip",
    "C74_built",
    "C74_stream",
    "C74_prefix_free",
    "C74_loaded",
    "C74_cut",
    "C74_layout",
    "C74_handle",
    "C74_handle_prefix_free",
    "C74_handle_loaded",
    "C74_histories",
    "C74_received",
    "C74_kinds_refuted"
   ],
   "note": "All of it is proved for all tries, handles and byte strings, except the last sentence, which is false: C74_kinds_refuted shows a caching trie built with two entries whose bytes are accepted as a plain trie with the entries under other keys (the tags for 'no cached hash' are read as parts of empty children, and bytes left over are ignored). bincode is modelled, not part of the repository."
  },
  {
   "property": "C75",
   "status": "proved",
   "theorems": [
    "C75_keys",
    "C75_values",
    "C75_items",
    "C75_paths",
    "C75_points",
    "C75_maps",
    "C75_collect"
   ],
   "note": "The hash map of the standard library is modelled as buckets with any selecting function; numbers are written with the lowest byte first and lengths as 64-bit numbers, which are the defaults on the usual machines."
  },
  {
   "property": "C76",
   "status": "proved",
   "theorems": [
    "C76_any",
    "C76_items",
    "C76_hash_exact",
    "C76_subset_exact",
    "C76_levels",
    "C76_api",
    "C76_build",
    "C76_build_steps",
    "C76_sharp",
    "C76_received",
    "C76_json",
    "C76_derived",
    "C76_derived_api",
    "C76_load",
    "C76_received_load"
   ],
   "note": "Calls are counted by levels of the trie: each level is a fixed number of stack frames. Derived code (Drop, Debug, Serialize, bincode's Deserialize) is modelled for StandardTrie; HashedPartialTrie derives the same with one more field."
  },
  {
   "property": "C77",
   "status": "proved",
   "theorems": [
    "C77_root",
    "C77_cached",
    "C77_only",
    "C77_small"
   ],
   "note": "C77_root (any order, same trie, same root, values), C77_cached (HashedPartialTrie), C77_only (converse, up to hash collisions), C77_small (why 32 bytes)."
  },
  {
   "property": "C78",
   "status": "proved",
   "theorems": [
    "C78_least",
    "C78_followed",
    "C78_any",
    "C78_values",
    "C78_nothing_more"
   ],
   "note": "C78_least (all partial tries of a trie), C78_followed (also keys that end inside an extension node, in terms of the key a Release build follows), C78_any (all tries with the root hash), C78_values (in terms of get and insert, keys of one length), C78_nothing_more."
  },
  {
   "property": "C79",
   "status": "proved",
   "theorems": [
    "C79_query",
    "C79_query_complete",
    "C79_diff",
    "C79_stats"
   ],
   "note": "C79_query, C79_query_complete, C79_diff, C79_stats."
  },
  {
   "property": "C80",
   "status": "proved",
   "theorems": [
    "C80_refresh",
    "C80_rounds",
    "C80_history"
   ],
   "note": "C80_refresh (one round), C80_rounds (any number), C80_history (from the empty trie, against a plain map and the Yellow Paper root)."
  },
  {
   "property": "C81",
   "status": "proved",
   "theorems": [
    "C81_fixed",
    "C81_outputs",
    "C81_replay",
    "C81_batch",
    "C81_refresh",
    "C81_rounds",
    "C81_map",
    "C81_history"
   ],
   "note": "Replaying on subsets (outputs, root hashes, refreshing in rounds, batches) over any prefix-free set of keys, of which keys of one length are a case (C81_fixed); gets of keys that end inside an extension node at the time are excluded (C12)."
  },
  {
   "property": "C82",
   "status": "proved",
   "theorems": [
    "C82_items",
    "C82_values",
    "C82_found",
    "C82_subset"
   ],
   "note": "For every canonical trie and everything that hides parts of it; C82_values and C82_subset for complete tries by the Yellow Paper, C82_items for tries that have hash nodes themselves."
  },
  {
   "property": "C83",
   "status": "proved",
   "theorems": [
    "C83_entry",
    "C83_length",
    "C83_honest",
    "C83_replay",
    "C83_next_root",
    "C83_predecessor_refuted"
   ],
   "note": "List proofs (C83_entry, C83_length, C83_next_root), honest excerpts (C83_honest) and programs that go on with an excerpt only (C83_replay). C83_predecessor_refuted: to remove entry 128 the entry before it is not enough; nothing panics, the root is wrong."
  },
  {
   "property": "C84",
   "status": "proved",
   "theorems": [
    "C84_run",
    "C84_writes",
    "C84_honest",
    "C84_requested",
    "C84_chain",
    "C84_served",
    "C84_look_needed"
   ],
   "note": "The checks of a received excerpt (received), the run and its answers and root (C84_run, C84_writes), that excerpts pass (C84_honest, C84_requested), chains of blocks from one root hash (C84_chain, C84_served), and that removals have to be looked at (C84_look_needed)."
  },
  {
   "property": "C85",
   "status": "proved",
   "theorems": [
    "C85_keys",
    "C85_tries",
    "C85_values",
    "C85_texts",
    "C85_program",
    "C85_threads",
    "C85_changes",
    "C85_reach",
    "C85_get",
    "C85_histories",
    "C85_same_refuted"
   ],
   "note": "Any call, program or set of threads: a debug build panics or agrees with release. Equality for insert, delete, hash, items on tries of the API and for prefix-free histories; get exactly. That the builds always agree is false (C85_same_refuted)."
  },
  {
   "property": "C86",
   "status": "proved",
   "theorems": [
    "C86_panics",
    "C86_merge",
    "C86_order",
    "C86_parts",
    "C86_one",
    "C86_excerpts"
   ],
   "note": "C86_merge: for canonical tries over prefix-free keys, with hash nodes, the exact outcome; C86_panics: a clash panics for all reachable tries; C86_order, C86_parts, C86_one, C86_excerpts."
  },
  {
   "property": "C87",
   "status": "proved",
   "theorems": [
    "C87_restore",
    "C87_journal",
    "C87_read",
    "C87_read_fixed",
    "C87_cached",
    "C87_refuted"
   ],
   "note": "C87_restore (any order), C87_journal (last first), C87_read and C87_read_fixed (what get says is enough), C87_cached (checkpoints of HashedPartialTrie). Without prefix-free keys it is false (C87_refuted)."
  },
  {
   "property": "C88",
   "status": "proved",
   "theorems": [
    "C88_alone",
    "C88_panics",
    "C88_short",
    "C88_order",
    "C88_excerpts",
    "C88_cached",
    "C88_refuted"
   ],
   "note": "For gets of keys as long as any in use, so always for keys of one length; C88_short for shorter ones that do not end inside an extension node, C88_refuted shows why."
  },
  {
   "property": "C89",
   "status": "proved",
   "theorems": [
    "C89_result",
    "C89_panics",
    "C89_net",
    "C89_compact",
    "C89_parallel",
    "C89_cached",
    "C89_refuted"
   ],
   "note": "C89_panics and C89_compact ask that gets are of keys as long as any in use (always so for keys of one length). Without prefix-free keys it is false (C89_refuted)."
  },
  {
   "property": "C90",
   "status": "proved",
   "theorems": [
    "C90_log",
    "C90_crash",
    "C90_cached",
    "C90_gap_refuted"
   ],
   "note": "Gets of keys as long as any in use (always so for keys of one length). C90_gap_refuted: with operations left out it is false."
  },
  {
   "property": "C91",
   "status": "proved",
   "theorems": [
    "C91_serial",
    "C91_panics",
    "C91_no_panic",
    "C91_excerpt",
    "C91_unchecked_refuted",
    "C91_cached"
   ],
   "note": "The store of versions, the check for conflicts and the commit are the user's and are written down in TxSpec.v and TxUserSpec.v; gets are of keys that no key is longer than (C12)."
  },
  {
   "property": "C92",
   "status": "proved",
   "theorems": [
    "C92_follow",
    "C92_served",
    "C92_careful_needed",
    "C92_any",
    "C92_program",
    "C92_program_any",
    "C92_program_limit",
    "C92_program_sound",
    "C92_program_any_sound",
    "C92_program_served",
    "C92_served_free",
    "C92_server_free",
    "C92_server"
   ],
   "note": "C92_follow for every history, list of programs and texts over keys of one length; C92_any for any keys, against the full trie; C92_served: honest texts exist; C92_careful_needed: what is watched has to be; C92_program\u2026: the follower as an executable program accepts exactly these runs; C92_server: an executable server satisfies it for every list of programs; C92_served_free: honest texts exist for keys of different lengths too, and C92_server_free: the server makes them. The collision alternative is concrete."
  }
 ]
}