{"id": "C01", "title": "Nibbles operations are sequence operations", "statement": "For a well-formed Nibbles (unused bits zero) every push/pop/split/range/truncate/merge/reverse/get operation returns exactly the nibbles that the same operation on the plain sequence of nibbles returns, and leaves the remaining Nibbles well-formed.", "quantifier": "every well-formed Nibbles of up to 127 nibbles (the documented limit is 64), every in-range argument, debug and release builds", "why_tests_cant": "2^512 packed values times every split point; unit tests use a handful of 4-nibble literals", "anchors": ["src/nibbles.rs:get_nibble", "src/nibbles.rs:get_nibble_range", "src/nibbles.rs:split_at_idx", "src/nibbles.rs:merge_nibbles", "src/nibbles.rs:reverse", "src/nibbles.rs:truncate_n_nibbles_front_mut", "src/nibbles.rs:pop_nibbles_back", "src/nibbles.rs:push_nibble_front"]}
{"id": "C02", "title": "Documented Nibbles panics", "statement": "Every Nibbles operation whose documentation says it panics (index or count out of range, nibble above 0xf, more than 64 nibbles) does panic, rather than returning a value, in every build profile.", "quantifier": "every Nibbles and every out-of-range argument, debug and release builds", "why_tests_cant": "tests run with overflow checks on and one out-of-range argument only", "anchors": ["src/nibbles.rs:split_at_idx", "src/nibbles.rs:get_nibble_range", "src/nibbles.rs:from_nibble", "src/nibbles.rs:nibble_append_safety_asserts", "src/nibbles.rs:pop_nibbles_front"]}
{"id": "C03", "title": "Common prefix computation", "statement": "The differing-index functions return the length of the longest common prefix, and the 'identical up to the smallest count' test is true exactly when one sequence is a prefix of the other.", "quantifier": "every pair of well-formed Nibbles", "why_tests_cant": "quadratically many pairs; only a few literal pairs tested", "anchors": ["src/nibbles.rs:find_nibble_idx_that_differs_between_nibbles_different_lengths", "src/nibbles.rs:nibbles_are_identical_up_to_smallest_count"]}
{"id": "C04", "title": "Hex-prefix encoding is the Yellow Paper HP function", "statement": "to_hex_prefix_encoding(is_leaf) yields the Yellow Paper hex-prefix bytes: flag nibble with parity and terminator, padding nibble when even, then the nibbles packed two per byte; it is injective in (nibbles, is_leaf).", "quantifier": "every well-formed Nibbles of up to 64 nibbles (and up to 127), both flags", "why_tests_cant": "four literals tested; hash agreement with Ethereum depends on all lengths and both parities", "anchors": ["src/nibbles.rs:to_hex_prefix_encoding"]}
{"id": "C05", "title": "Hex-prefix decoding inverts encoding", "statement": "from_hex_prefix_encoding applied to the output of to_hex_prefix_encoding returns the original nibbles, for leaf and extension keys, and rejects exactly inputs longer than 33 bytes or with invalid flags.", "quantifier": "every well-formed Nibbles of up to 64 nibbles, both flags; every byte string", "why_tests_cant": "a round trip over an unbounded family; tests even bake in a terminator for leaves", "anchors": ["src/nibbles.rs:from_hex_prefix_encoding", "src/nibbles.rs:to_hex_prefix_encoding"]}
{"id": "C06", "title": "Integer keys", "statement": "Converting an unsigned integer gives its hexadecimal digits without leading zeros (0 gives the empty key); the byte padded conversion gives the same number with an even digit count at most one larger; different integers give different keys.", "quantifier": "every integer of every supported width up to 512 bits", "why_tests_cant": "integer domain is astronomically large", "anchors": ["src/nibbles.rs:ToNibbles", "src/nibbles.rs:to_nibbles_byte_padded", "src/nibbles.rs:impl_to_nibbles"]}
{"id": "C07", "title": "Byte keys", "statement": "from_bytes_be turns bytes into two nibbles per byte in order, from_bytes_le into those of the reversed bytes, bytes_be of the result returns the bytes, and a slice is rejected exactly when it is empty or longer than 32 bytes; H256 conversions give 64 nibbles.", "quantifier": "every byte slice", "why_tests_cant": "unbounded input domain and a boundary at 32/33 bytes", "anchors": ["src/nibbles.rs:from_bytes_be", "src/nibbles.rs:from_bytes_le", "src/nibbles.rs:bytes_be", "src/nibbles.rs:from_h256_be", "src/nibbles.rs:from_h256_le"]}
{"id": "C08", "title": "Hex text round trip", "statement": "Formatting a well-formed key as hex prints 0x followed by one digit per nibble including leading zeros, and parsing that text (with or without 0x) returns the same key; text with a non-hex character or more than 128 digits is rejected.", "quantifier": "every well-formed Nibbles up to 128 nibbles, every text", "why_tests_cant": "round trip over an unbounded family", "anchors": ["src/nibbles.rs:as_hex_str", "src/nibbles.rs:from_str"]}
{"id": "C09", "title": "Key equality and order", "statement": "Two well-formed keys compare equal exactly when they are the same nibble sequence, and their order is the total order by length and then by numeric value.", "quantifier": "every pair/triple of well-formed Nibbles", "why_tests_cant": "relation over all pairs", "anchors": ["src/nibbles.rs:Nibbles"]}
{"id": "C10", "title": "Fixed-length key tries are maps", "statement": "Starting from an empty trie, any sequence of insert, extend, delete and get with keys of one common length and non-empty values never panics and gives exactly the results a plain key/value map gives.", "quantifier": "every key length up to 64, every finite sequence of operations, debug and release", "why_tests_cant": "all histories; tests run random inserts and then random deletes", "anchors": ["src/trie_ops.rs:trie_insert", "src/trie_ops.rs:trie_get", "src/trie_ops.rs:trie_delete", "src/partial_trie.rs:PartialTrie"]}
{"id": "C11", "title": "Every stored key is found", "statement": "In any trie reachable by successful operations, get of a key that items() lists with a value returns that value, also for keys of different lengths and keys that are prefixes of others.", "quantifier": "every reachable trie, every stored key", "why_tests_cant": "all histories and keys", "anchors": ["src/trie_ops.rs:trie_get_intern"]}
{"id": "C12", "title": "Absent keys are not found", "statement": "get of a key that is not stored returns None and does not panic.", "quantifier": "every reachable trie, every absent key", "why_tests_cant": "all histories times all absent keys; the test only uses one absent key that diverges early", "anchors": ["src/trie_ops.rs:trie_get_intern"]}
{"id": "C13", "title": "Insert touches only its key", "statement": "After insert(k, v) the trie maps k to v and every other key to what it was before, for keys of any lengths, including keys that are prefixes of stored keys.", "quantifier": "every reachable trie, key and non-empty value", "why_tests_cant": "all tries times all keys; random long keys are practically never prefixes of one another", "anchors": ["src/trie_ops.rs:insert_into_trie_rec", "src/trie_ops.rs:place_branch_and_potentially_ext_prefix"]}
{"id": "C14", "title": "Delete removes only its key", "statement": "delete(k) of a stored key returns its value; afterwards k is absent and every other key is unchanged; it does not panic.", "quantifier": "every reachable trie, every stored key", "why_tests_cant": "all tries times all keys; random long keys never put values in branches", "anchors": ["src/trie_ops.rs:delete_intern", "src/trie_ops.rs:collapse_ext_node_if_needed", "src/trie_ops.rs:get_other_non_empty_child_and_nibble_in_two_elem_branch"]}
{"id": "C15", "title": "Deleting an absent key is a no-op", "statement": "delete of a key that is not stored returns None and leaves the trie unchanged.", "quantifier": "every reachable trie, every absent key", "why_tests_cant": "all tries times all absent keys", "anchors": ["src/trie_ops.rs:delete_intern", "src/trie_ops.rs:trie_delete"]}
{"id": "C16", "title": "Iteration is exact", "statement": "items() terminates and yields every stored entry (value or hash node) exactly once with its full key, and nothing else; keys() and values() are its projections in the same order.", "quantifier": "every reachable trie with keys of at most 64 nibbles", "why_tests_cant": "the iterator keeps a mutable key stack whose correctness depends on every tree shape", "anchors": ["src/trie_ops.rs:PartialTrieIter", "src/trie_ops.rs:trie_items", "src/trie_ops.rs:trie_keys", "src/trie_ops.rs:trie_values"]}
{"id": "C17", "title": "Structure depends only on contents", "statement": "Two tries built by any successful insert/delete histories over prefix-free keys that end with the same contents are structurally equal, hence have the same hash; in particular insertion order is irrelevant.", "quantifier": "every pair of histories", "why_tests_cant": "pairs of unbounded histories", "anchors": ["src/trie_ops.rs:insert_into_trie_rec", "src/trie_ops.rs:delete_intern", "src/partial_trie.rs:PartialEq"]}
{"id": "C18", "title": "Insert then delete restores the trie", "statement": "Inserting a fresh key and deleting it again gives back the identical trie, hence the original root hash.", "quantifier": "every reachable trie over prefix-free keys and every fresh key", "why_tests_cant": "all tries and keys", "anchors": ["src/trie_ops.rs:insert_into_trie_rec", "src/trie_ops.rs:delete_intern"]}
{"id": "C19", "title": "Root hash is the Ethereum root hash", "statement": "hash() equals the Yellow Paper (appendix D) trie root of the stored key/value pairs, for every hash function used in place of Keccak.", "quantifier": "every trie reachable by inserts and deletes over prefix-free keys (and every canonical trie), every content", "why_tests_cant": "equality with a recursive spec over unbounded tries; tests compare to another library on random data", "anchors": ["src/trie_hashing.rs:rlp_encode_and_hash_node", "src/trie_hashing.rs:hash_trie", "src/nibbles.rs:to_hex_prefix_encoding"]}
{"id": "C20", "title": "Hash nodes stand for subtrees", "statement": "Replacing any subtree whose encoding is at least 32 bytes by a Hash node with its hash leaves the root hash unchanged; for a smaller subtree it need not.", "quantifier": "every trie, every set of subtrees", "why_tests_cant": "all tries and all replacement sets", "anchors": ["src/partial_trie.rs:Node::Hash", "src/trie_hashing.rs:rlp_encode_and_hash_node"]}
{"id": "C21", "title": "Root hash binds the contents", "statement": "If two hash-node-free tries have the same root hash then they are equal, unless a concrete pair of different byte strings with the same Keccak digest exists among their node encodings.", "quantifier": "every pair of tries", "why_tests_cant": "injectivity of the encoding over unbounded tries", "anchors": ["src/trie_hashing.rs:rlp_encode_and_hash_node"]}
{"id": "C22", "title": "Subset keeps the root hash", "statement": "A successful create_trie_subset returns a trie with the same root hash as the base trie.", "quantifier": "every trie, every list of keys, every hash function", "why_tests_cant": "all tries times all key lists", "anchors": ["src/trie_subsets.rs:create_trie_subset", "src/trie_subsets.rs:create_partial_trie_subset_from_tracked_trie"]}
{"id": "C23", "title": "Subset keeps requested keys", "statement": "In the subset, get of every requested key gives the same result as in the base trie, and get of any other key gives either the base result or None.", "quantifier": "every trie, every list of keys, every queried key", "why_tests_cant": "all tries times all key lists times all keys", "anchors": ["src/trie_subsets.rs:mark_nodes_that_are_needed", "src/trie_subsets.rs:create_partial_trie_subset_from_tracked_trie"]}
{"id": "C24", "title": "Subset hashes out everything else", "statement": "In the subset exactly the maximal subtrees not on the path of a requested key and with an encoding of at least 32 bytes are replaced by Hash nodes; every node on a requested path is kept as is.", "quantifier": "every trie, every list of keys", "why_tests_cant": "all tries times all key lists", "anchors": ["src/trie_subsets.rs:create_partial_trie_subset_from_tracked_trie", "src/trie_subsets.rs:mark_nodes_that_are_needed"]}
{"id": "C25", "title": "Subset errors", "statement": "create_trie_subset fails exactly when a requested key leads into a Hash node before its end; keys that do not exist are not an error and never panic. The error is about the first such key: it holds the digits of the key below the hash node, and this hash node.", "quantifier": "every trie, every list of keys", "why_tests_cant": "all tries times all key lists", "anchors": ["src/trie_subsets.rs:mark_nodes_that_are_needed", "src/trie_subsets.rs:SubsetTrieError"]}
{"id": "C26", "title": "Batch subsets are independent", "statement": "create_trie_subsets returns, for each key list, the same trie as create_trie_subset for that list alone.", "quantifier": "every trie, every list of key lists", "why_tests_cant": "needs state carried from one subset to the next; tests only check inclusion", "anchors": ["src/trie_subsets.rs:create_trie_subsets", "src/trie_subsets.rs:reset_tracked_trie_state"]}
{"id": "C27", "title": "Inserting in a partial trie matches the full trie", "statement": "If insert succeeds on a trie in which some subtrees were replaced by their Hash nodes then it succeeds on the full trie and both results have the same root hash; get agrees too.", "quantifier": "every trie, every hashing-out of it, every entry", "why_tests_cant": "relational property over pairs of tries", "anchors": ["src/trie_ops.rs:insert_into_trie_rec", "src/trie_ops.rs:trie_get_intern", "src/trie_subsets.rs:create_trie_subset"]}
{"id": "C28", "title": "Deleting in a partial trie matches the full trie", "statement": "If delete succeeds on a trie in which some subtrees were replaced by their Hash nodes then the result has the same root hash as deleting from the full trie.", "quantifier": "every trie, every hashing-out of it, every key", "why_tests_cant": "relational property over pairs of tries; depends on collapsing next to a Hash node", "anchors": ["src/trie_ops.rs:delete_intern", "src/trie_ops.rs:collapse_ext_node_if_needed"]}
{"id": "C29", "title": "Cached hashes are never stale", "statement": "For HashedPartialTrie, hash() always equals the hash recomputed from the current contents, whatever inserts, deletes, clones, hashes and subset computations happened before on this or on cloned handles.", "quantifier": "every history over any number of handles", "why_tests_cant": "histories over aliased caches", "anchors": ["src/partial_trie.rs:HashedPartialTrie", "src/partial_trie.rs:hash_intern", "src/partial_trie.rs:get_hash", "src/partial_trie.rs:set_hash"]}
{"id": "C30", "title": "Concurrent hashing is safe", "statement": "When threads start with clones of tries whose cached hashes are right (any tries built without the operations of the counterexamples to C29), each of them obtains from hash() and from every other call what it would obtain alone, in every interleaving of the lock-protected cache reads and writes, and no thread waits for ever.", "quantifier": "every number of threads, every schedule", "why_tests_cant": "schedules", "anchors": ["src/partial_trie.rs:hash_intern", "src/partial_trie.rs:RwLock"]}
{"id": "C31", "title": "Equality is structural and ignores caches", "statement": "== on tries is an equivalence relation that holds exactly when the tries have the same nodes, whatever is cached; equal tries have equal hashes.", "quantifier": "every pair of tries and cache states", "why_tests_cant": "relation over all pairs", "anchors": ["src/partial_trie.rs:PartialEq"]}
{"id": "C32", "title": "Clones are snapshots", "statement": "Operations on one handle never change the contents seen through another handle cloned from it.", "quantifier": "every history over any number of handles", "why_tests_cant": "histories over aliased nodes", "anchors": ["src/partial_trie.rs:WrappedNode", "src/trie_ops.rs:trie_insert", "src/trie_ops.rs:trie_delete"]}
{"id": "C33", "title": "Hash nodes are opaque", "statement": "get through a Hash node returns None; insert and delete panic when, and (for insert, apart from placing a hash on an occupied key, only when) they would traverse a Hash node.", "quantifier": "every reachable trie with hash nodes, every key", "why_tests_cant": "all tries times all keys", "anchors": ["src/trie_ops.rs:insert_into_trie_rec", "src/trie_ops.rs:delete_intern", "src/trie_ops.rs:trie_get_intern"]}
{"id": "C34", "title": "extend and from_iter", "statement": "extend inserts the entries in order (the last value for a key wins); from_iter is extend on an empty trie; for distinct keys the order does not matter.", "quantifier": "every list of entries", "why_tests_cant": "unbounded lists and permutations", "anchors": ["src/trie_ops.rs:trie_extend", "src/partial_trie.rs:from_iter_common"]}
{"id": "C35", "title": "Trie statistics are exact", "statement": "The node counts equal the number of nodes of each kind, total nodes = 1 + 16*branches + extensions, the lowest depth is the depth of the deepest leaf or hash node, and the depth sums are the sums over leaves and hash nodes.", "quantifier": "every trie", "why_tests_cant": "all shapes", "anchors": ["src/debug_tools/stats.rs:get_trie_stats_rec"]}
{"id": "C36", "title": "Trie diff", "statement": "create_diff_between_tries reports no difference exactly when the root hashes are equal, and never panics.", "quantifier": "every pair of tries", "why_tests_cant": "all pairs; most tests are unimplemented", "anchors": ["src/debug_tools/diff.rs:create_diff_between_tries"]}
{"id": "C37", "title": "Path query", "statement": "get_path_from_query reports the nodes that a lookup of the key traverses, says found exactly when the key is stored, and never panics.", "quantifier": "every trie and key", "why_tests_cant": "no tests exist; all tries times all keys", "anchors": ["src/debug_tools/query.rs:get_path_from_query"]}
{"id": "C38", "title": "Integer values", "statement": "Converting an unsigned integer to a trie value gives its big-endian bytes at the width of the type and does not panic.", "quantifier": "every integer of every supported width", "why_tests_cant": "integer domain", "anchors": ["src/trie_ops.rs:impl_eth_type_from_for_val_variant", "src/trie_ops.rs:impl_prim_int_from_for_val_variant"]}
{"id": "C39", "title": "Empty trie hash", "statement": "The hash of an empty trie is the Keccak-256 digest of the RLP of the empty string, 0x56e81f17...b421, however the trie became empty; and a trie without Hash nodes that has this hash is empty, or its encoding is a second preimage of the hash.", "quantifier": "every history of calls that ends with no entries: over keys of one length or prefix free keys (where none panics), and successful calls with any keys; every trie for the converse", "why_tests_cant": "all histories", "anchors": ["src/trie_hashing.rs:hash_trie", "src/partial_trie.rs:Node::Empty"]}
{"id": "C40", "title": "A partial trie with the right root hash is sound", "statement": "If a trie with Hash nodes has the same root hash as a trie without Hash nodes, then it is that trie with some subtrees replaced by their hashes, and every value get returns from it is the value the full trie returns, unless a concrete pair of different byte strings with the same Keccak digest exists among their node encodings.", "quantifier": "every full trie, every partial trie, every key", "why_tests_cant": "It quantifies over all pairs of tries, including adversarially built partial tries, and over the hash function; a test can only try some forgeries.", "anchors": ["src/trie_hashing.rs:rlp_encode_and_hash_node", "src/partial_trie.rs:Node", "src/trie_ops.rs:trie_get"]}
{"id": "C41", "title": "Depth of a reported difference", "statement": "The depth field of the point reported by create_diff_between_tries is the number of nodes on the path from the root to it.", "quantifier": "every pair of tries with a reported difference", "why_tests_cant": "all pairs of tries", "anchors": ["src/debug_tools/diff.rs:DiffPoint", "src/debug_tools/diff.rs:DepthDiffPerCallState"]}
{"id": "C42", "title": "A subset is enough to replay operations on its keys", "statement": "Take a subset of a trie with keys of one length for some requested keys of that length. Any sequence of insert, extend, delete and get calls that only uses the requested keys panics on the subset exactly when it panics on the full trie, returns the same values, and, when it has no deletes, ends with the same root hash.", "quantifier": "every trie with keys of one length (with or without hash nodes), every list of requested keys of that length, every history of calls on those keys, both build profiles, single subsets and batches", "why_tests_cant": "tests check the contents and hash of a subset right after it is created, for some tries; the claim is about all later histories", "anchors": ["src/trie_subsets.rs:create_trie_subset", "src/trie_subsets.rs:create_trie_subsets", "src/trie_ops.rs:trie_insert", "src/trie_ops.rs:trie_delete", "src/trie_ops.rs:trie_get"]}
{"id": "C43", "title": "Caught panics do no damage", "statement": "When the caller catches a panic (catch_unwind, or a panic in one of several threads that work on clones), every handle still holds what it held before the operation, an extend keeps exactly the elements before the one that panicked, and from then on every observation, including hash(), is that of these contents.", "quantifier": "every program of API calls on any number of HashedPartialTrie handles, every point at which an operation or the iterator given to extend panics, any number of panics, every interleaving of threads", "why_tests_cant": "it ranges over all crash points in all histories and schedules; the tests never go on after a panic", "anchors": ["src/partial_trie.rs:HashedPartialTrie::insert", "src/partial_trie.rs:HashedPartialTrie::extend", "src/partial_trie.rs:HashedPartialTrie::delete", "src/partial_trie.rs:HashedPartialTrie::hash_intern", "src/trie_ops.rs:trie_insert", "src/trie_ops.rs:trie_extend", "src/trie_ops.rs:trie_delete"]}
{"id": "C44", "title": "Saving and loading", "statement": "A key, a StandardTrie or a HashedPartialTrie that is serialised can always be deserialised again, and gives an equal value; for a HashedPartialTrie also hash() of the loaded trie is the hash of its contents and later changes to the original and the loaded trie do not affect each other's hashes. Different tries are saved as different data, equal tries as the same data. Loading any other data gives an error or a valid trie, without a panic.", "quantifier": "every key, every trie of either type with any cached hashes, every history of API calls on any number of handles in which tries are saved and loaded at any point, every piece of serialised data", "why_tests_cant": "the crate has no test of it, and the claim ranges over all tries, cache states and data", "anchors": ["src/nibbles.rs:Nibbles", "src/partial_trie.rs:Node", "src/partial_trie.rs:StandardTrie", "src/partial_trie.rs:HashedPartialTrie"]}
{"id": "C45", "title": "Trie diff does not depend on cached hashes", "statement": "create_diff_between_tries on two HashedPartialTrie handles gives the result that comparing their contents gives, whatever hashes have been computed and cached before, and caching during the comparison does not change later results.", "quantifier": "every history of API calls on any number of handles before, between and after comparisons, both build profiles", "why_tests_cant": "tests compare freshly built tries; the claim ranges over all cache states that histories can produce", "anchors": ["src/debug_tools/diff.rs:create_diff_between_tries", "src/partial_trie.rs:HashedPartialTrie::hash"]}
{"id": "C46", "title": "hash() is incremental", "statement": "Once hash() has been called on a HashedPartialTrie, the next hash() on it looks at a number of nodes that is bounded by a constant times one plus the number of entries inserted or deleted through it since, for any size of the trie and whatever was done with other handles (clones and subsets included); a clone of such a handle, or a trie loaded from one that was saved, starts with the same bound; a hash() never looks at a node twice.", "quantifier": "every history of API calls (new, insert, extend, delete, get, hash, ==, clone, subsets, diff, save and load) on any number of handles for whole tries, keys of at most 64 nibbles, any hash function, both build profiles; for the last part every history of any calls", "why_tests_cant": "tests can time some tries; that no history loses the benefit of the cache is a statement about all histories", "anchors": ["src/partial_trie.rs:HashedPartialTrie::hash", "src/partial_trie.rs:HashedPartialTrie::hash_intern", "src/partial_trie.rs:HashedPartialTrie::set_hash", "src/trie_ops.rs:insert_into_trie_rec", "src/trie_ops.rs:delete_intern", "src/trie_hashing.rs:rlp_encode_and_hash_node"]}
{"id": "C47", "title": "Keys back to integers", "statement": "try_into_u256 of a well-formed key returns the number its hex digits write if the key has at most 64 nibbles, and an error, never a panic, if it has more (up to 128, as many as a key can hold; a key whose public count field claims more panics because of the text of the error). Keys made from an integer or a 32-byte hash give that number back; making a key from the number again gives the digits without the leading zeros. get_num_nibbles_in_key and min_bytes return the fewest digits and bytes.", "quantifier": "every well-formed key of any length, every 256-bit integer, every 32-byte hash, both build profiles", "why_tests_cant": "unbounded input domain and a boundary at 64/65 nibbles", "anchors": ["src/nibbles.rs:try_into_u256", "src/nibbles.rs:get_num_nibbles_in_key", "src/nibbles.rs:min_bytes", "src/nibbles.rs:to_nibbles", "src/nibbles.rs:from_h256_be"]}
{"id": "C48", "title": "Printed reports", "statement": "Whatever a path query or create_diff_between_tries returns can be printed without a panic, and the text lists exactly the reported facts in the documented order: the queried key, whether it was found, one line per node with the details that the last calls on the query's builder asked for, the place of a difference with key, value, type and hash on both sides. With node types and key pieces shown, two results with the same text are the same result, and so for paths and differences. The statistics report shows the numbers of nodes of each type in the trie, their share of all nodes, and the depth; its text and that of a comparison determine all these integers.", "quantifier": "every query on every well-formed trie with every setting, every pair of tries, every trie statistics and comparison, both build profiles; any text for f32 numbers", "why_tests_cant": "the output is only compared by eye; that no trie makes it panic or gives an ambiguous text is a statement about all tries", "anchors": ["src/debug_tools/query.rs:DebugQueryOutput", "src/debug_tools/query.rs:fmt_node_based_on_debug_params", "src/debug_tools/query.rs:ExtraNodeSegmentInfo", "src/debug_tools/common.rs:NodePath", "src/debug_tools/common.rs:PathSegment", "src/debug_tools/diff.rs:DiffPoint", "src/debug_tools/diff.rs:NodeInfo", "src/debug_tools/stats.rs:TrieStats", "src/debug_tools/stats.rs:TrieComparison", "src/utils.rs:TrieNodeType"]}
{"id": "C49", "title": "Subsets can be narrowed", "statement": "Taking the subset for some keys of a subset gives exactly the subset of the original trie for these keys, as long as they were among the keys of the first subset; so a partial trie can be narrowed without the original. A subset for fewer keys is the subset for more keys with subtrees replaced by their hashes, and the subset for all stored keys is the trie itself.", "quantifier": "every well-formed trie, partial or not, all lists of keys of at most 64 nibbles, any hash function with 32-byte outputs, both build profiles", "why_tests_cant": "all pairs of key lists and tries", "anchors": ["src/trie_subsets.rs:create_trie_subset", "src/trie_subsets.rs:create_partial_trie_subset_from_tracked_trie", "src/trie_subsets.rs:mark_nodes_that_are_needed"]}
{"id": "C50", "title": "Size and depth", "statement": "A trie built by inserting entries, or by any operations over prefix-free keys, has less than four nodes per entry (three without hash nodes), not counting empty ones; no node of any trie that operations build is deeper than the longest stored key, so nothing recurses deeper than 65 nodes.", "quantifier": "every list of entries with keys of at most 64 nibbles, every history of insert, extend, delete and get over prefix-free keys, both build profiles; for the depth every reachable trie", "why_tests_cant": "memory and stack use must be bounded for all histories", "anchors": ["src/trie_ops.rs:trie_insert", "src/trie_ops.rs:trie_delete", "src/partial_trie.rs:Node", "src/debug_tools/stats.rs:get_trie_stats"]}
{"id": "C51", "title": "Locks", "statement": "Threads that work on clones of HashedPartialTrie handles never deadlock and never run for ever: whatever the order of their steps, as long as one has not ended some thread can go on, and if each gets its turn again and again all end, with the results they would have had alone. No thread reads or writes a cached hash while another writes it. This holds also for locks that keep readers waiting while a writer waits.", "quantifier": "every number of threads, programs over the API, order of the single steps (taking a lock, accessing, releasing), rule by which locks prefer writers", "why_tests_cant": "deadlocks and races depend on the schedule; all interleavings of lock operations must be covered", "anchors": ["src/partial_trie.rs:HashedPartialTrie::get_hash", "src/partial_trie.rs:HashedPartialTrie::set_hash", "src/partial_trie.rs:HashedPartialTrie::hash_intern"]}
{"id": "C52", "title": "Accurate averages and percentages", "statement": "The average depths and percentages that trie statistics and comparisons print are those of the trie: each printed decimal number differs from the exact value by at most half a unit of its last digit and a 2^-19th part of the value. A share of nodes is never above 100.00%. Averages over no nodes are printed as NaN, a comparison with a count of 0 as inf or NaN.", "quantifier": "all tries of up to 2^64 nodes (averages compared with each other: 2^48), both build profiles, all f32 values for the printed digits", "why_tests_cant": "Rounding errors of f32 conversions, divisions and decimal printing depend on the numbers; tests try a few small tries.", "anchors": ["src/debug_tools/stats.rs: get_trie_stats_common, write_node_count_stats, RatioStat, Display implementations"]}
{"id": "C53", "title": "Changes are local", "statement": "insert on a HashedPartialTrie creates at most depth + 21 nodes and delete at most 2 * depth + 2, for tries of any size; every other node below the root of the result is a node of the trie before (the same object, not a copy), and nothing is taken from anywhere else. With keys of at most 64 nibbles these are at most 85 and 130 nodes. clone, get, hash, ==, assigning and comparing create no node. So a program that keeps any number of versions of its tries needs memory in proportion to the number of updates it makes.", "quantifier": "every trie and every key and value, both build profiles; for the last part every history of new, insert, extend, delete, get, hash, ==, clone and assignment with keys of at most 64 nibbles on any number of handles", "why_tests_cant": "tests can count nodes for some tries; that no update of any trie copies more than its path is a statement about all of them", "anchors": ["src/trie_ops.rs:insert_into_trie_rec", "src/trie_ops.rs:delete_intern", "src/trie_ops.rs:place_branch_and_potentially_ext_prefix", "src/trie_ops.rs:collapse_ext_node_if_needed", "src/partial_trie.rs:HashedPartialTrie", "src/partial_trie.rs:WrappedNode"]}
{"id": "C54", "title": "Logging shows what happens and changes nothing", "statement": "Switching on trace logging does not change what get, insert, extend and delete return, what they store, or whether they panic; with logging off they write nothing. A logged operation writes one line for each node on the way from the root that the key describes, in order, with the nibble or nibbles of that node; insert and delete first write the key (and value) that they were given, and delete writes more lines only when it deletes something: on the way back from the deleted leaf at most one for each node, saying which branch turned into an extension node and which extension nodes are tidied up, with their nibbles and the type of their child. Keys must be well formed (public fields count and packed consistent, at most 64 nibbles): formatting a key of more than 128 nibbles panics, so such keys behave differently when logged.", "quantifier": "every trie with keys of at most 64 nibbles, every well-formed key, every value, both build profiles; for the lines: keys that do not end inside an extension node, for example keys no shorter than any stored key", "why_tests_cant": "formatting code can panic or have effects for some keys only, and tests run with one log level", "anchors": ["src/trie_ops.rs: trace! calls in trie_insert, trie_get_intern, trie_delete, insert_into_trie_rec, delete_intern, collapse_ext_node_if_needed", "src/nibbles.rs: Debug, Display and LowerHex for Nibbles, as_hex_str"]}
{"id": "C55", "title": "Error messages", "statement": "The message of an error says what was wrong with the input: too few or too many bytes and how many there were; the flags of a hex-prefix text; the number of nibbles and the nibbles of a key too large for an integer; the length and the bytes of a hex-prefix text that is too long; the key for which no subset can be made. Making the message never panics.", "quantifier": "every byte string, every key of less than 2^64 - 1 nibbles, every trie and list of keys for which the operation returns an error, both build profiles", "why_tests_cant": "tests check that an error is returned, not what it says, and the text depends on the input", "anchors": ["src/nibbles.rs:BytesToNibblesError", "src/nibbles.rs:FromHexPrefixError", "src/nibbles.rs:try_into_u256", "src/trie_subsets.rs:SubsetTrieError", "src/trie_subsets.rs:mark_nodes_that_are_needed"]}
{"id": "C56", "title": "Iteration order, and single calls of the iterator", "statement": "items() yields keys in one fixed order that depends only on the contents: where two keys first differ the one with the smaller nibble comes first, and a key comes after all longer keys that begin with it. Keys of equal length therefore come in ascending order of Ord, and two tries with equal contents give identical sequences even if their nodes differ. Each call of next() returns the next item; after the last item it returns None for ever; no call panics.", "quantifier": "every reachable trie, both build profiles, and every number of next() calls", "why_tests_cant": "the order must hold for every tree shape and set of keys, and for every point at which the caller stops", "anchors": ["src/trie_ops.rs:PartialTrieIter", "src/trie_ops.rs:trie_items", "src/nibbles.rs:Ord for Nibbles"]}
{"id": "C57", "title": "Rebuilding a trie from its items", "statement": "Collecting items() into a new trie reproduces the contents, and for tries in canonical shape the same trie. (Refuted for keys that are prefixes of others: a value is lost exactly if some stored key is followed by one nibble only in the longer stored keys, and these are not a single key with a value.)", "quantifier": "every reachable trie, with values and hash nodes, both build profiles", "why_tests_cant": "the items arrive in iteration order, and whether every insertion lands at its own key depends on all keys inserted before", "anchors": ["src/trie_ops.rs:trie_items", "src/partial_trie.rs:from_iter_common", "src/trie_ops.rs:insert_into_trie_rec"]}
{"id": "C58", "title": "Keys of more than 64 nibbles", "statement": "Every key that insert accepts can afterwards be read with get, hashed, listed with items() and deleted, also when it is longer than the documented limit of 64 nibbles (from_bytes_be accepts 33 bytes, and the fields of Nibbles are public). (Refuted: get and hash work, but items() panics at the first key of more than 64 nibbles, after all earlier items, and delete can panic if some stored key is that long; a delete that succeeds is right.)", "quantifier": "every history of successful inserts and deletes with keys of at most 127 nibbles, both build profiles, any number of calls of the iterator", "why_tests_cant": "the panics come from joining key parts along a path; whether a join exceeds 64 nibbles depends on the lengths of all parts on the path, hence on all other stored keys", "anchors": ["src/nibbles.rs:Nibbles::merge_nibbles", "src/nibbles.rs:Nibbles::nibble_append_safety_asserts", "src/nibbles.rs:Nibbles::from_bytes_be", "src/trie_ops.rs:PartialTrieIter::next", "src/trie_ops.rs:collapse_ext_node_if_needed"]}
{"id": "C59", "title": "Iterators are snapshots", "statement": "An iterator from items() (and so from keys() and values()) gives the items that the trie had when the iterator was opened, in order, and None for ever after them, whatever is done between two calls of next to clones of the trie, to tries that share nodes with it, or to other iterators; opening or advancing an iterator changes no trie and no cached hash.", "quantifier": "every program with any number of handles and iterators of HashedPartialTrie, whose uses are interleaved in any way (the borrow checker only forbids changing the very handle that the iterator was opened on; the theorems do not need that)", "why_tests_cant": "the nodes on the stack of the iterator are shared with other tries, so each interleaving of next with inserts, deletes, assignments and hashes on these would have to be tried", "anchors": ["src/trie_ops.rs:PartialTrieIter", "src/trie_ops.rs:Node::trie_items", "src/partial_trie.rs:HashedPartialTrie::items"]}
{"id": "C60", "title": "Subsets are small", "statement": "A subset for k keys has at most 31 + 497*(d+1)*k nodes, where d is the depth of the trie (at most 64, so at most 31 + 32305*k nodes), however many entries the trie has, and never more nodes than the trie. In a batch the keys of the earlier lists count as well. For HashedPartialTrie all nodes of the result are new, and nothing else is allocated.", "quantifier": "every trie of any size, every list of keys (present or not, of any length), every batch, both build profiles, any hash function with 32-byte output", "why_tests_cant": "the bound must hold for tries of any size and shape: a test only sees the sizes it builds, and one subtree that is kept by mistake grows with the trie", "anchors": ["src/trie_subsets.rs:create_trie_subset", "src/trie_subsets.rs:create_trie_subsets", "src/trie_subsets.rs:create_partial_trie_subset_from_tracked_trie"]}
{"id": "C61", "title": "Saving and loading as JSON", "statement": "Loading the JSON text of a trie gives the same trie; different tries have different texts; for HashedPartialTrie the loaded handle equals the saved one and holds the same cached hashes. Loading never panics, whatever the text, and what it accepts is a value of the Rust types (16 children, keys of 512 bits, 32-byte hashes). The order of the fields, unknown entries, and a missing or null hash make no difference; a field given twice is an error; texts of StandardTrie and of HashedPartialTrie are not confused; a text without cached hashes gives a handle with the right hash. With serde_json's default nesting limit, from_str accepts exactly those saved tries whose text has fewer than 128 nested brackets, which is so for every trie.", "quantifier": "every trie of either kind, every state of the cached hashes, every JSON document and every rewriting of it", "why_tests_cant": "any trie, any state of the caches and any document, from any source and nested to any depth; a test reads back the few texts it wrote", "anchors": ["src/partial_trie.rs:Node", "src/partial_trie.rs:StandardTrie", "src/partial_trie.rs:HashedPartialTrie", "src/nibbles.rs:Nibbles", "Cargo.toml:serde_json"]}
{"id": "C62", "title": "JSON texts of tries", "statement": "The text that serde_json writes for a trie, compact or pretty, is a text of the JSON grammar (RFC 8259) and is read back as the same trie; different tries have different texts. The reader accepts exactly the texts of the grammar (with the default limit: those nested less than 128 deep), each with one meaning, so blanks, escapes and the case of hex digits make no difference. Nothing but blanks may follow a text, and no text of a trie that was cut off anywhere is accepted. The compact text is one line of visible ASCII characters, and the pretty text differs from it by blanks only, laid out with one element on each line and two blanks of indentation for each level. Programs that save and load handles through such texts behave as if they had kept the data. With serde_json's default nesting limit, from_str accepts exactly those saved tries whose text has fewer than 128 nested brackets, which is so for every trie.", "quantifier": "every trie of either kind and every state of the cached hashes; every sequence of characters; every history of operations that saves and loads", "why_tests_cant": "there are infinitely many texts and tries, and every cut of every text; a test reads back the few texts it wrote", "anchors": ["src/partial_trie.rs:Node", "src/partial_trie.rs:StandardTrie", "src/partial_trie.rs:HashedPartialTrie", "src/nibbles.rs:Nibbles", "Cargo.toml:serde_json"]}
{"id": "C63", "title": "Debug output", "statement": "{:?} and {:#?} of keys, values, tries of both kinds, query outputs, differences, statistics, their comparisons and errors never panic for what the API makes, write the documented Rust layout (one line, or one item per line with four blanks of indentation for each level, the first being the second without its line breaks), and determine the data: the same text means the same key, value, trie, output, difference, statistics, comparison or error. The text of an average is a decimal number that is rounded to it, with the fewest digits any such number has and, among those, the nearest; it has an exponent only below 0.0001 and from 10^16 on, and no superfluous zeros. Printing a caching trie changes nothing, in any interleaving with other threads; beside the contents it shows at every node that the lock is taken, that no hash is cached, or the right hash of that node. Equal tries have the same text.", "quantifier": "every key, value, trie, report and error; every state of the cached hashes and locks; every interleaving with threads that hash and change clones", "why_tests_cant": "two different tries might share a text, and a text is made while other threads write to the cells; tests compare a few texts and no schedules", "anchors": ["src/nibbles.rs:impl Debug for Nibbles", "src/nibbles.rs:BytesToNibblesError", "src/nibbles.rs:FromHexPrefixError", "src/partial_trie.rs:Node", "src/partial_trie.rs:StandardTrie", "src/partial_trie.rs:HashedPartialTrie", "src/trie_ops.rs:ValOrHash", "src/trie_subsets.rs:SubsetTrieError", "src/debug_tools/query.rs:DebugQueryOutput", "src/debug_tools/diff.rs:TrieDiff", "src/debug_tools/common.rs:NodePath", "src/debug_tools/stats.rs:TrieStats", "src/debug_tools/stats.rs:TrieComparison"]}
{"id": "C64", "title": "Partial tries with one root hash never contradict each other", "statement": "If two tries, both possibly with Hash nodes, have the same root hash, then both are one and the same trie with some subtrees replaced by their hashes (or one of them is nothing but that hash). So get never finds two different values for a key in them, their contents agree wherever neither has a Hash node on the way, and any history of inserts, extends and deletes that succeeds on both, and in which no delete has to merge a branch with a Hash node, returns the same values and leaves both with one root hash; all unless a concrete pair of different byte strings with the same Keccak digest exists among their node encodings.", "quantifier": "every pair of tries with the same root hash, every key, every history of writes", "why_tests_cant": "all pairs of partial tries, including ones that no subset call produced; the statement is about every trie with that root hash", "anchors": ["src/trie_hashing.rs:hash_trie", "src/partial_trie.rs:Node::Hash", "src/trie_ops.rs:trie_get", "src/trie_ops.rs:trie_insert"]}
{"id": "C65", "title": "A subset that also covers a neighbour of each deleted key can replay deletes", "statement": "Take a subset of a trie for a list of keys of one length and run on it any history of inserts, extends, gets and deletes of those keys. If, at each delete, the list contains a stored key that shares the longest prefix with the deleted key (or the deleted key is not stored, or is the only stored key), then every output is that of the full trie and the final root hash is that of the full trie after the same history. The neighbour is needed in general: without it a delete can succeed and give a wrong root hash.", "quantifier": "every trie with keys of one length (with or without Hash nodes), every list of requested keys, every history on those keys, every batch of subsets", "why_tests_cant": "the condition must cover every shape of trie around the deleted key and every history before the delete", "anchors": ["src/trie_subsets.rs:create_trie_subset", "src/trie_subsets.rs:create_trie_subsets", "src/trie_ops.rs:trie_delete", "src/trie_ops.rs:delete_intern", "src/trie_hashing.rs:hash_trie"]}
{"id": "C66", "title": "A trie received as text is bound by its root hash", "statement": "Whoever loads a trie from a JSON text of unknown origin and compares its root hash with a trusted one can rely on it: every value that get finds is the value of the full trie with that root, the contents agree wherever no Hash node is on the way, and writes that succeed without merging a Hash node leave the root hash that the full trie would have (unless a collision of the hash function exists among the encodings). An honestly produced text of a subset is accepted and has the right root.", "quantifier": "every text, every full trie with the trusted root hash, every key, every history of writes", "why_tests_cant": "ranges over all texts, also ones made to deceive; tests only load texts that the library wrote", "anchors": ["src/partial_trie.rs:Node", "src/partial_trie.rs:HashedPartialTrie", "src/nibbles.rs:Nibbles", "src/nibbles.rs:to_hex_prefix_encoding", "src/trie_hashing.rs:hash_trie", "src/trie_ops.rs:trie_get", "src/trie_subsets.rs:create_trie_subset"]}
{"id": "C67", "title": "Iterating is linear, a lookup is bounded by the key", "statement": "Iterating over a trie to the end takes work linear in the number of items: all calls of next together run at most 36 steps for each item and two more, where a step is a round of the loop or a node looked at, and every node is looked at exactly once. The iterator never remembers more than one entry for each level of the trie. get, insert and delete look at no more nodes than the key has nibbles, plus one.", "quantifier": "every trie built by inserts, or by inserts and deletes over prefix-free keys (linear cost); every trie (exact cost, memory, lookups); every well-formed key; both build profiles", "why_tests_cant": "a bound on the work for all tries and keys; a quadratic iterator passes every test that compares items", "anchors": ["src/trie_ops.rs:PartialTrieIter", "src/trie_ops.rs:advance_iter_to_next_empty_leaf_or_hash_node", "src/trie_ops.rs:next", "src/trie_ops.rs:trie_get_intern", "src/trie_ops.rs:insert_into_trie_rec", "src/trie_ops.rs:delete_intern"]}
{"id": "C68", "title": "A trie used as a list indexed by RLP keys behaves as the list, with its root", "statement": "A program that keeps a list in a trie under the keys RLP(0), RLP(1), ... (the layout of Ethereum's transaction, receipt and withdrawal tries) with insert, delete and get can append entries, overwrite entries, remove the last entry and look up any index, inside the list or beyond it, and gets the answers a list would give, without panics. At the end the root hash is the Yellow Paper root of the list, items() yields exactly its entries under the keys of their indices, and inserting these entries in any order gives the same trie.", "quantifier": "every history of these operations from the empty list, every list length and looked up index below 2^64, non-empty values (byte strings below 2^31 bytes for the root), both build profiles, every hash function with 32 byte results", "why_tests_cant": "all histories and lengths; the keys have different lengths from 128 entries on (and again from 256, 65536, ...), and lookups of shorter keys or of prefixes are where the code can panic or answer wrongly", "anchors": ["src/partial_trie.rs:PartialTrie", "src/trie_ops.rs:trie_insert", "src/trie_ops.rs:trie_get", "src/trie_ops.rs:trie_delete", "src/trie_hashing.rs:hash_trie", "src/nibbles.rs:Nibbles::from_bytes_be"]}
{"id": "C69", "title": "The tries of the Ethereum state have the state root of the accounts they hold", "statement": "A program that keeps the Ethereum state in tries (a storage trie for every account with RLP(value) under the hash of the slot, and a state trie with RLP(nonce, balance, storage root, code hash) under the hash of the address, as in examples/ethereum_trie.rs) and updates them with insert and delete, re-inserting the entry of an account whenever its storage changes, never panics, reads back what it wrote, and at all times has the storage roots and the state root that the Yellow Paper defines for the accounts and slots. Two such states with the same state root have the same accounts and the same storage, or two different byte strings with the same hash can be found among those that were hashed for them. Tries that from_iter builds at once from a state have the same roots, and are equal to the tries of any program that came to that state step by step.", "quantifier": "every sequence of writes of accounts and slots, removals and reads from the empty state, with 256 bit numbers, 32 byte code hashes and addresses and slots that are byte strings of any length without hash collisions among them; both build profiles; every hash function with 32 byte results", "why_tests_cant": "all histories, accounts and storages; the root has to be right after every sequence, including clearing slots, destroying accounts and writing the same account again", "anchors": ["examples/ethereum_trie.rs", "src/partial_trie.rs:PartialTrie", "src/trie_ops.rs:trie_insert", "src/trie_ops.rs:trie_delete", "src/trie_hashing.rs:hash_trie", "src/nibbles.rs:Nibbles::from_h256_be", "src/partial_trie.rs:from_iter"]}
{"id": "C70", "title": "An excerpt of the Ethereum state is enough to run a program on it", "statement": "Taking the subsets of the state trie and of the storage tries for some accounts and slots always succeeds and keeps the state root. Running a program that only uses these accounts and slots on the excerpt gives all reads the answers of the full state and ends with the state root that the full state has after the program, if for every account it destroys and every slot it clears the excerpt was also taken for a neighbour (the account or slot whose hash shares the longest prefix with it), if there is one. A program that removes nothing needs no neighbours. Without the neighbour the last root can be wrong.", "quantifier": "every sequence of writes, removals and reads that builds the full state, every list of names, every further program on them that meets the condition; no hash collisions among the names; both build profiles; every hash function with 32 byte results", "why_tests_cant": "all states and programs; whether an excerpt is enough depends on the shape of both levels of tries at every step of the program", "anchors": ["src/trie_subsets.rs:create_trie_subset", "examples/ethereum_trie.rs", "src/trie_ops.rs:trie_insert", "src/trie_ops.rs:trie_delete", "src/trie_hashing.rs:hash_trie"]}
{"id": "C71", "title": "A root hash is enough to check what a received trie says about the Ethereum state", "statement": "Somebody who only knows the state root and receives tries as text, checks them and compares their root hashes (the state trie's with the state root, a storage trie's with the storage root in the account's entry that get found) can rely on them: an account or slot that get finds has the value it has in the state with that root, and one for which delete finds nothing to delete does not exist, unless two different byte strings with the same hash are known. The texts of an excerpt of the state are accepted and say what is so about every name of the excerpt. That get finds nothing does not mean that there is nothing.", "quantifier": "every state built by writes, removals and reads from the empty one, every received text, every account and slot; both build profiles; every hash function with 32 byte results", "why_tests_cant": "all states and all texts, also those that an adversary makes up", "anchors": ["examples/ethereum_trie.rs", "src/trie_subsets.rs:create_trie_subset", "src/trie_hashing.rs:hash_trie", "src/trie_ops.rs:trie_get", "src/trie_ops.rs:trie_delete", "src/partial_trie.rs:Node"]}
{"id": "C72", "title": "Programs that react to what they see get the same from caching tries", "statement": "A program that chooses each call on HashedPartialTrie handles from the answers it got so far, root hashes included, gets exactly the answers it would get if every hash were computed from the contents, and ends with the same tries, if it never makes a second handle for a node inside a trie (or keeps to the discipline of C29). In particular a program that keeps the Ethereum state in such handles, one for the state trie and one for the storage trie of every account, and puts storage roots into account entries, never panics and answers every request right: every state root or storage root it is asked for, at any time, is the one that the Yellow Paper defines for the state at that time. Threads that start from clones of a program's handles and run such programs of their own, in any interleaving, each get what their program gets when it runs alone; threads that go on from clones of the Ethereum state each get the answers for that state changed by their own requests only. The same holds for programs and threads that catch panics and react to them, if they clone only whole tries (or keep to the discipline of C43): a caught panic has no effect except that an extend has made the inserts before it.", "quantifier": "every program (a tree of calls branching on the answers) and every run of it; every list of requests to the Ethereum program; both build profiles; every hash function with 32 byte results without collisions among the names used; any number of threads and every schedule in which the thread considered keeps getting turns", "why_tests_cant": "all programs and all request histories, with hashes cached at any of the points in between", "anchors": ["src/partial_trie.rs:HashedPartialTrie", "src/trie_hashing.rs:hash_trie", "src/trie_ops.rs:trie_insert", "src/trie_ops.rs:trie_delete", "examples/ethereum_trie.rs"]}
{"id": "C73", "title": "Which draws of its random generators the crate's own randomised tests accept", "statement": "The crate's tests with random keys and values run with one seed each. For every other outcome of their generators: tests on 64-nibble keys (inserting, comparing, get, root hashes after every insert compared with the Yellow Paper, subsets, statistics) pass exactly when no key is drawn with two values (the statistics: when no key is drawn twice; comparing: when the two draws differ), and the hash and subset tests always. With keys of random length: holding clones always works; inserting and iterating pass exactly when no key comes after two or more keys that all continue it with the same nibble; with hash nodes exactly when no used slot is a prefix of a key; deletion of distinct keys none of which is a prefix of another always passes in release builds and in debug builds exactly when no deleted key ends inside a run of nibbles common to the keys left; root hashes after inserts and deletes agree, and replacing every second child of the root by a hash node keeps the root, under the same condition on the order. There are draws of distinct keys of random length for which the insertion, hash node and debug deletion tests fail.", "quantifier": "every number of entries and every outcome of the key, value and slot generators; every order in which the HashSet gives the entries; both build profiles; every hash function with 32 byte results", "why_tests_cant": "a run of these tests sees one seed; the claim is about all outcomes of the generators, of any size", "anchors": ["src/testing_utils.rs", "src/trie_ops.rs:tests", "src/trie_hashing.rs:tests", "src/trie_subsets.rs:tests", "src/debug_tools/stats.rs:tests"]}
{"id": "C74", "title": "Saving and loading in a binary format", "statement": "A key, a StandardTrie or a HashedPartialTrie saved with bincode's default options has the documented layout and loads again equal to what was saved, the handle with the same cached hashes in cells of its own, also from a stream in which other data follows and in any program that saves and loads its tries. Different tries (for handles: different contents or cached hashes) have different bytes and the bytes of one are never the beginning of those of another; a file that was cut short is refused; loading any bytes never panics and gives values of the Rust types; if what was loaded passes the check of C66 and has the root hash of a full trie, each value found in it is that of the full trie. The bytes of one kind of trie are never accepted as a different trie of the other kind.", "quantifier": "every key, trie and handle of the Rust types, every state of the cached hashes, every byte string, every history of operations, both build profiles, every hash function with 32 byte results", "why_tests_cant": "tests of a few files say nothing about all tries, all cut points and all byte strings an attacker may send", "anchors": ["src/nibbles.rs:Nibbles", "src/partial_trie.rs:Node", "src/partial_trie.rs:StandardTrie", "src/partial_trie.rs:HashedPartialTrie"]}
{"id": "C75", "title": "Keys, values, items and difference points in hash sets and maps", "statement": "Keys, values of a trie, its items, node paths and the points of a trie difference can be used in hash sets and maps: == is equality of the values; equal values are hashed alike by every hasher, and different values hand different bytes to the hasher, none the beginning of the other's, also as parts of tuples and lists. So a HashMap over them is a function from keys to values, and collecting the items of a trie in a HashSet gives exactly the set of the items, for every hasher and bucket count.", "quantifier": "every pair of values of the Rust types, every hasher, every sequence of insert, remove and get on the map", "why_tests_cant": "collisions and inconsistencies between == and Hash show up only for some of the unboundedly many pairs of values", "anchors": ["src/nibbles.rs:Nibbles", "src/trie_ops.rs:ValOrHash", "src/debug_tools/common.rs:NodePath", "src/debug_tools/diff.rs:DiffPoint"]}
{"id": "C76", "title": "Recursion depth does not grow with the size of the trie", "statement": "get, insert, delete, hashing, path queries, statistics, equality and each step of iteration nest at most as many calls as the trie has levels, creating a subset or a difference one more. With less stack they give the same result or exhaust the stack, nothing else; hashing needs exactly the number of levels. A trie built by the API has at most 65 levels however many entries it has (65 occur), and building it from a list of any length needs no more than that. A trie loaded from JSON text has at most 64 levels, whoever wrote the text. A trie loaded from a binary format has no such bound: for a stack of any size there are bytes, 23 for each level, that exhaust it while they are loaded and that load, with room for one more call, as a trie on which get, insert, delete, hash, subset, ==, saving, printing and dropping exhaust it. In general loading bytes that are a trie needs exactly its levels, and loading any bytes no more than a quarter of their number plus one. Dropping a trie (whichever nodes are shared with other handles), saving it and printing it need no more than its levels, and exactly these when nothing is shared.", "quantifier": "every trie, key, value, list of keys, room on the stack, round of iteration, text, byte string, sharing of nodes with other handles, and build profile", "why_tests_cant": "a stack overflow kills the process and depends on shapes of tries that tests do not build; a bound over all tries and all texts cannot be sampled", "anchors": ["src/trie_ops.rs:insert_into_trie_rec", "src/trie_ops.rs:delete_intern", "src/trie_ops.rs:trie_get_intern", "src/trie_ops.rs:PartialTrieIter", "src/trie_hashing.rs:rlp_encode_and_hash_node", "src/trie_subsets.rs:create_trie_subset", "src/debug_tools/stats.rs:get_trie_stats_rec", "src/debug_tools/query.rs:get_path_from_query_rec", "src/debug_tools/diff.rs:find_latest_diff_point_between_tries_rec"]}
{"id": "C77", "title": "A partial trie built by hand from values and hashes of subtrees", "statement": "Take a trie and a list of entries, each of them an entry of the trie or the way to one of its nodes with the hash() of that node (whose encoding has at least 32 bytes), no key of the list a prefix of another, such that every entry of the trie is in the list or below a hash of the list. Building a trie from the list, in any order, gives one and the same trie: the original with those subtrees replaced by hash nodes. It has the root hash of the original (also when the hashes are cached), get gives every value of the list, and nothing else is stored. Conversely, if a list of this form builds a trie with the root hash of a complete trie, then it consists of entries and hashes of subtrees of that trie as described, or of the root hash only, or two node encodings have the same hash. With the hash of a smaller subtree the root is another one.", "quantifier": "every canonical trie (with or without hash nodes), list, order of the list, hash function of 32 bytes and build profile", "why_tests_cant": "there are exponentially many ways to cut a trie and orders to insert the pieces; tests check one (examples/hash_nodes.rs)", "anchors": ["examples/hash_nodes.rs", "README.md", "src/partial_trie.rs:FromIterator", "src/trie_ops.rs:insert_into_trie_rec", "src/trie_hashing.rs:hash_trie"]}
{"id": "C78", "title": "A subset is the smallest excerpt that keeps its keys", "statement": "Take the subset of a trie for some keys. Every other trie with the same root hash that does not cut off a requested key by a hash node is the subset with some of its hash nodes replaced by what they stand for (or two node encodings have the same hash): it has at least as many nodes, and taking the subset for the keys from it gives the very same trie. In particular, with keys of one length, this holds for every trie with the same root hash in which get finds a value for each requested key or insert works for it. Nothing more can be hidden in a subset without cutting off a requested key.", "quantifier": "every trie (for the last sentence also partial ones), every non-empty list of keys (in release builds none that ends inside an extension node), every other trie, every hash function of 32 bytes", "why_tests_cant": "minimality compares with every other trie that has the root hash", "anchors": ["src/trie_subsets.rs:create_trie_subset", "src/trie_subsets.rs:mark_nodes_that_are_needed", "src/trie_subsets.rs:create_partial_trie_subset_from_tracked_trie"]}
{"id": "C79", "title": "Debugging tools on an excerpt of a trie", "statement": "Take a trie with any of its subtrees replaced by their hashes. A path query on it either gives what it gives on the complete trie (the same panic, path, extra information and found flag), or it ends at the hash node that stands for a node u of the complete trie: up to there it says the same, it reports the hash of u, and the query on the complete trie, if it does not panic, goes on with u. So a query that meets no hash node is the one on the complete trie. A diff between two excerpts of one trie finds nothing. The statistics of an excerpt are not larger in any count or in the lowest depth, except for the number of hash nodes, which grows by at most the number of other non-empty nodes that are gone.", "quantifier": "every trie (for diffs and queries any, also not canonical, with sixteen children per branch and keys of at most 64 nibbles; for statistics less than 2^32 nodes), every choice of subtrees with an encoding of at least 32 bytes, every key of at most 64 nibbles, every hash function of 32 bytes, both build profiles", "why_tests_cant": "ranges over all tries, all choices of hidden subtrees and all keys", "anchors": ["src/debug_tools/query.rs:get_path_from_query", "src/debug_tools/diff.rs:create_diff_between_tries", "src/debug_tools/stats.rs:get_trie_stats", "src/trie_subsets.rs:create_trie_subset"]}
{"id": "C80", "title": "An excerpt can be kept up to date without the complete trie", "statement": "Take the subset of a trie for some keys of one length and run the same operations on those keys on the subset and on the trie (each deleted key has a neighbour among the keys, see C65). Then taking the subset of the changed excerpt, for the same keys or some of them, gives the very same trie as taking it from the changed complete trie. So a follower who only ever holds a subset, and after each round of operations cuts it down to the keys that are still needed, sees the outputs and the root hash of every round that the holder of the complete trie sees, panics exactly when the holder does, and ends with the subset of the holder's trie; it never holds more than it needs. If the complete trie was built from nothing, these outputs are those of one plain map and the root hashes are the Yellow Paper roots of that map.", "quantifier": "every trie with keys of one length (also partial), every list of keys, every number of rounds, every history of operations in each, every choice of the keys still needed, every hash function of 32 bytes, both build profiles", "why_tests_cant": "ranges over all tries and all histories in all numbers of rounds", "anchors": ["src/trie_subsets.rs:create_trie_subset", "src/trie_ops.rs:trie_insert", "src/trie_ops.rs:trie_delete", "src/trie_hashing.rs:hash_trie"]}
{"id": "C81", "title": "Replaying on excerpts of tries with keys of different lengths", "statement": "Let no key be the beginning of another one (as with the keys of list tries, or keys of one length). Then what C42, C65 and C80 say of keys of one length holds: operations on a subset's keys panic on the subset exactly when they panic on the complete trie and return the same; if each deleted key has a neighbour among the keys, the root hash after them is that of the complete trie, and subsets of the changed excerpt are subsets of the changed complete trie, so that a follower can go on for any number of rounds with an excerpt only. Gets are included whose key does not end inside an extension node at the time; a stored key never does, nor does one no shorter than every stored key. Built from nothing, outputs are those of one plain map and root hashes are its Yellow Paper roots.", "quantifier": "every set of keys none of which is the beginning of another, every trie over them (also partial), every list of requested keys, every history in every number of rounds, single subsets and batches, every hash function of 32 bytes, both build profiles", "why_tests_cant": "ranges over all key sets, tries and histories", "anchors": ["src/trie_subsets.rs:create_trie_subset", "src/trie_subsets.rs:create_trie_subsets", "src/trie_ops.rs:trie_insert", "src/trie_ops.rs:trie_delete", "src/trie_ops.rs:trie_get", "src/trie_hashing.rs:hash_trie"]}
{"id": "C82", "title": "Iterating over an excerpt of a trie", "statement": "The items of a complete trie are obtained from the items of an excerpt of it (for example a subset), in their order, by putting in place of each hash item that is not in the complete trie a non-empty run of items: the entries, with the key of the hash item in front, of a trie whose root hash is that hash; when the complete trie has only values, the hash is the Yellow Paper root of the run with that key cut off. So iterating over an excerpt shows no value that the complete trie does not have, and leaves out none without a hash item whose key its key begins with; and it gives at most as many items.", "quantifier": "every canonical trie, every excerpt of it, every hash function of 32 bytes, both build profiles", "why_tests_cant": "ranges over all tries and all ways to hide parts of them", "anchors": ["src/trie_ops.rs:PartialTrieIter", "src/trie_ops.rs:trie_items", "src/trie_subsets.rs:create_trie_subset"]}
{"id": "C83", "title": "Excerpts of lists, and what the root of a list is good for", "statement": "For lists kept under the keys RLP(0), RLP(1), ... (transactions, receipts, withdrawals of a block): somebody who only knows the root and receives a trie as text, checks it and compares its root hash can rely on it: an entry that get finds is the entry of the list, one for which delete finds nothing to delete does not exist, so that the length can be read off, and if appending and overwriting entries on it does not panic, the new root hash is the root of the changed list; unless two different byte strings with the same hash are known. A subset for any indices, inside the list or beyond it, can be taken, its text is accepted, and it says what is so about these indices. On a subset alone, appending, overwriting, removing the last entry and looking up give the answers of the list and at the end its Yellow Paper root, if the subset was taken for the indices involved and, for each removed entry, the one before it (entry 0 for entry 128).", "quantifier": "every list of less than 2^64 non-empty byte strings below 2^31 bytes, every received text, every list of indices, every history of list operations; both build profiles; every hash function with 32 byte results", "why_tests_cant": "ranges over all lists, texts, excerpts and histories, including adversarial texts", "anchors": ["src/trie_subsets.rs:create_trie_subset", "src/trie_ops.rs:trie_insert", "src/trie_ops.rs:trie_delete", "src/trie_ops.rs:trie_get", "src/trie_hashing.rs:hash_trie", "src/partial_trie.rs:Deserialize"]}
{"id": "C84", "title": "Running a program on an excerpt of the Ethereum state from an untrusted source", "statement": "Somebody who only knows the root hash of an Ethereum state receives a state trie and storage tries as text and a table of accounts, all made by somebody else. They check that the texts are read as well-formed tries, that the state trie has the known root, that it says of every name of interest that there is no account, with none in the table, or that there is the account of the table, whose storage trie has the storage root of the entry and says something about every name. Then every program that only uses these names gives, on what was received alone, the answers of the full state, and the root hash afterwards is the root of the changed full state, provided that whenever the program removes an account or clears a slot, no branch with a hash node as its only other child is left over, which the receiver sees; unless two different byte strings with the same hash are known. Excerpts made with create_trie_subset for the names pass these checks, and if they were made for a neighbour of everything that is removed, too, the removals are found to be fine. The same holds block by block: somebody who keeps nothing but the last root hash and receives such an excerpt with every block gets all the answers and all the root hashes of the full state. Without looking at removals the root can be wrong.", "quantifier": "every history of writes that made the state, every received client (texts and table), every list of names, every program of writes, reads and removals on these names; both build profiles; every hash function with 32 byte results", "why_tests_cant": "ranges over all states, all adversarial texts and tables, and all programs", "anchors": ["src/trie_subsets.rs:create_trie_subset", "src/trie_ops.rs:trie_insert", "src/trie_ops.rs:trie_delete", "src/trie_ops.rs:trie_get", "src/trie_hashing.rs:hash_trie", "src/partial_trie.rs:Deserialize"]}
{"id": "C85", "title": "Debug and release builds", "statement": "Whatever the call and its arguments, well-formed or not, a build with overflow checks and debug assertions panics or does exactly what a release build does: a release build never panics where a debug build does not, and gives the same answers. The same holds for whole programs on handles with cached hashes (results, handles and caches), and for threads that share handles under any schedule, as long as no thread has panicked in the debug build. On tries of the API, inserting and deleting with keys of at most 64 nibbles, hashing and iterating are the same in both builds, panics included, so both builds can make the same tries; histories with keys of which none is the start of another are the same. The builds are not always the same: on canonical tries, get differs exactly for the keys that end inside an extension.", "quantifier": "every key and index, every trie (also made by hand), every value and list of entries, every program of calls chosen from the answers so far, every number of threads, every schedule; every history", "why_tests_cant": "tests run in one build, and the claim ranges over all inputs, programs and schedules", "anchors": ["src/nibbles.rs:Nibbles", "src/trie_ops.rs:insert", "src/trie_ops.rs:trie_get", "src/trie_ops.rs:delete", "src/trie_hashing.rs:hash_trie", "src/trie_subsets.rs:create_trie_subset", "src/debug_tools/diff.rs:create_diff_between_tries", "src/debug_tools/query.rs:get_path_from_query", "src/debug_tools/stats.rs:get_trie_stats", "src/partial_trie.rs:HashedPartialTrie"]}
{"id": "C86", "title": "Merging tries", "statement": "Extending a trie with the items of another one merges them: if no key is the start of another, the result is the canonical trie with the entries of both, those of the second trie where both have one, and it panics exactly if a hash node of one trie is at or above a key of the other. Tries with different keys give the same result in either order. Building the parts of a list of entries separately and merging them gives the trie of the whole list. Different excerpts of the same trie cannot be merged in this way: it panics whenever one of them has a hash node.", "quantifier": "every two canonical tries over prefix-free keys, with any hash nodes; every split of a list of entries; every two excerpts of a trie; every pair of reachable tries for the panics", "why_tests_cant": "two tries overlap in unboundedly many ways, and the outcome depends on where the hash nodes of each are", "anchors": ["src/partial_trie.rs:extend", "src/partial_trie.rs:items", "src/trie_ops.rs:insert", "src/trie_ops.rs:PartialTrieIter", "src/trie_subsets.rs:create_trie_subset"]}
{"id": "C87", "title": "Taking changes back", "statement": "After any history of inserts, extends, deletes and gets on a trie over prefix-free keys, with any hash nodes, putting every key that was touched back to what it was before (inserting its old value, or deleting it), in any order, never panics and restores the very same trie, so its root hash, in either build. Undoing the operations one by one, the last first, does so as well. What has to be written down beforehand can be read with get. With HashedPartialTrie the hash after this is that of the checkpoint and the trie is equal to a clone taken then, whatever was hashed in between. For keys that are the start of others it is false: a value can be lost.", "quantifier": "every trie over prefix-free keys with any hash nodes, every history that does not panic, every order of putting the keys back, both builds", "why_tests_cant": "the claim is about all histories and all orders of undoing them, and nodes are split and merged on the way", "anchors": ["src/trie_ops.rs:insert_into_trie_rec", "src/trie_ops.rs:delete_intern", "src/trie_ops.rs:trie_get_intern", "src/partial_trie.rs:HashedPartialTrie", "src/partial_trie.rs:PartialTrie"]}
{"id": "C88", "title": "Independent callers", "statement": "Callers that take turns on one trie over prefix-free keys, with any hash nodes, each inserting, extending, deleting and getting only keys of its own, do not disturb each other: every one gets the answers it would get if it were alone, its keys are at the end as it would have left them, and other keys stay as they are. The schedule panics exactly if one of the callers would panic alone, and every schedule with the same callers ends with the very same trie, so root hash, also with HashedPartialTrie. Callers that work apart, each on a create_trie_subset excerpt with its own keys, get the same answers as on the complete trie. Gets must be of keys as long as any; for shorter ones it is false: a get can panic (debug builds) because of what another caller deleted.", "quantifier": "every trie over prefix-free keys with any hash nodes, any number of callers with disjoint keys, every schedule of their operations, both builds", "why_tests_cant": "the claim is about all interleavings of all histories, and operations on different keys split and merge the same nodes", "anchors": ["src/trie_ops.rs:insert_into_trie_rec", "src/trie_ops.rs:delete_intern", "src/trie_ops.rs:trie_get_intern", "src/trie_subsets.rs:create_trie_subset", "src/partial_trie.rs:HashedPartialTrie"]}
{"id": "C89", "title": "Only the last change of each key counts", "statement": "On a trie over prefix-free keys, with any hash nodes, the trie that a history of inserts, extends, deletes and gets leaves holds at each key its last change and elsewhere what was there before. Two histories with the same last changes end with the very same trie, so root hash, whatever happens in between and in whichever order and build; in particular a history can be cut down to one insert or delete for each key it changes, in any order, and panics exactly if that does: if one of these keys is at or below a hash node. Callers that work apart on keys of their own can hand in their last changes one after the other, in any order of the callers, and get the trie that taking turns gives. The same with HashedPartialTrie. For keys that are the start of others it is false.", "quantifier": "every trie over prefix-free keys with any hash nodes, every two histories with the same last changes, every order, both builds", "why_tests_cant": "the claim compares all histories with all others that have the same net effect", "anchors": ["src/trie_ops.rs:insert_into_trie_rec", "src/trie_ops.rs:delete_intern", "src/partial_trie.rs:HashedPartialTrie", "src/partial_trie.rs:PartialTrie"]}
{"id": "C90", "title": "Replaying a log after crashes", "statement": "A log of inserts, extends, deletes and gets on a trie over prefix-free keys, with any hash nodes, may be followed in any number of runs, each stopping anywhere and the next going on at any operation that is not later in the log than where the one before stopped (so operations are done twice or more often, on a trie that has already seen later ones): the trie at the end, so its root hash, is the very one that following the log once gives, and no run panics if that does not. The same with HashedPartialTrie. Skipping operations gives another trie.", "quantifier": "every trie over prefix-free keys with any hash nodes, every log, every sequence of crash points and restart points, both builds", "why_tests_cant": "the claim is about all logs and all sequences of crash and restart points", "anchors": ["src/trie_ops.rs:insert_into_trie_rec", "src/trie_ops.rs:delete_intern", "src/partial_trie.rs:HashedPartialTrie", "src/partial_trie.rs:PartialTrie"]}
{"id": "C91", "title": "Transactions on snapshots", "statement": "Programs that react to the answers they get (inserts, extends, deletes, gets) run on earlier versions (clones) of a trie over prefix-free keys with any hash nodes. A program is refused if one of the keys it got or deleted was changed by a program committed since its version; otherwise only its last change of each key is made to the newest version. Then the newest version is the very trie, so with the same root hash, that running the accepted programs one after the other on the first trie gives, and each was answered exactly as there; a commit panics exactly if its program panicked on its own version, so nothing does if no program changes a key at or below a hash node. A program may be run on the excerpt (create_trie_subset) of its version with its keys instead: it does the same with the same answers. With HashedPartialTrie, where versions are clones that share nodes and cached hashes, the same programs are refused, the others get the same answers, and hash() of the newest version is that root hash. Without refusing, updates are lost.", "quantifier": "every trie over prefix-free keys with any hash nodes, every sequence of programs of any length and branching, every choice of the versions they ran on, both builds", "why_tests_cant": "the claim is about all programs, all interleavings of starts and commits, and all tries", "anchors": ["src/trie_ops.rs:insert_into_trie_rec", "src/trie_ops.rs:delete_intern", "src/trie_ops.rs:trie_get_intern", "src/trie_subsets.rs:create_trie_subset", "src/partial_trie.rs:PartialTrie"]}
{"id": "C92", "title": "Following a map from its root hash alone", "statement": "Somebody knows only the root hash of a map over keys of one length. For each of any number of programs, which react to the answers they get (inserts, extends, deletes, gets), they receive a trie as text from anybody, check that it is read as a well-formed trie with the last known root hash, run the program on that trie alone, see that it does not panic, asks for no key at or below a hash node and leaves no branch over with a hash node as only child, and keep nothing but the new root hash. Then all answers are those of the map and the last root hash is the Yellow Paper root of the map the programs leave, unless one of the texts holds a concrete hash collision with the trie at that time. Whoever has the full trie can always make such texts with create_trie_subset, if for each program the keys it uses and a neighbour of each key it deletes are requested. For keys of any lengths, also ones that start others, the answers and the root hash are those that the full trie gives. Without watching the gets an answer can be wrong, and without watching the deletes the root hash can be. The checks can be written as a program of API calls and walks over nodes, which accepts exactly these runs; and a program that has the full trie can serve every list of programs so that the first accepts. Such texts also exist when the keys have different lengths and none is the beginning of another, if besides every key that is requested or got is stored or no shorter than any stored key. The serving program makes them then too.", "quantifier": "every history that made the map, every list of programs of any length and branching, all texts whoever made them, every hash function with 32-byte digests, both builds", "why_tests_cant": "ranges over all texts, also ones made to deceive, and over all programs and histories", "anchors": ["src/trie_hashing.rs:hash_trie", "src/trie_ops.rs:insert_into_trie_rec", "src/trie_ops.rs:delete_intern", "src/trie_ops.rs:trie_get_intern", "src/trie_subsets.rs:create_trie_subset", "src/partial_trie.rs:Node"]}
