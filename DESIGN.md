# Formal model of eth_trie_utils in Rocq (Coq 8.16.1)

Build: `cd rocq && coq_makefile -f _CoqProject -o Makefile && make -j4` (about three minutes).
`properties.jsonl` has the properties, `MANIFEST.json` the theorems for each of them, `seeded/LOG.jsonl` the wrong programs the
theorems were tested against.

## 1. Trusted base

* **Coq's kernel** (and its `vm_compute`, used for concrete witnesses and examples).
* **Assumptions.** Every property theorem `Cxx_…` is followed by `Print Assumptions`; for each of them the answer is
  *Closed under the global context*: no axiom, neither of the standard library nor of this development, is used.
  `coqchk -o` on the whole development additionally names axioms that are declared in standard-library files loaded by
  `Require` (`Coq.ssr.ssrunder.Under_rel.*`, an opaque-signature artefact of the standard library, loaded
  indirectly); no theorem depends on them. No kernel check is switched off; no functors or module types are defined. Section
  variables are only used inside closed sections, so they become universally quantified arguments.
* **The model** (section 2): that the Gallina definitions say what the Rust code does. Each definition cites the file and
  lines it models and states the simplifications.
* **The specifications** (files `*Spec.v`, `YellowPaper.v`): that they say what the English properties say. They use the
  data types of the model (`nibbles`, `node`, …) and none of its operations.
* **External crates**, which are not part of /repo. What is assumed about them is written down as definitions:
  * `ethereum_types`/`uint` (`U128/U256/U512`): shifts by the width or more give 0, `<<` drops the high bits, `-` panics on
    underflow in every profile, `to_big_endian` copies into a slice, `leading_zeros`/`bits`, `from_big_endian` panics when
    the slice is too long, `{:x}` prints without leading zeros, `from_str_radix` (Nibbles.v, Base.v, Values.v).
  * `rlp` 0.5.2 (`RlpStream`): the finished bytes of lists and strings, including the `u32`/`usize` length prefixes (Rlp.v).
  * `keccak_hash`: an arbitrary function, in most theorems with 32-byte outputs (`hash32`); Keccak.v has an executable
    Keccak-256 that is proved to satisfy `hash32` (KeccakFacts.v) and is checked against published digests.
  * `parking_lot::RwLock`: every access to a cell is one atomic step (Cache.v). Locks.v models taking, accessing and releasing as
    separate steps; C51 shows that every such run is an interleaving of atomic steps.
  * IEEE-754 `f32` conversion, division and product: Coq's `SpecFloat` (Stats.v). Printing an `f32` with a fixed number of fraction digits
    (`core::fmt`): the decimal number nearest to the exact value, ties to even (FloatText.v).

## 2. Modelling decisions

* **Panics** are an explicit value: every function that can panic returns `res A := Ok a | Panic`. Rust `Result` and
  `Option` stay data (`result`, `option`).
* **Build profile** is a parameter `pr : profile := Debug | Release`. `usize` arithmetic that overflows panics in Debug and
  wraps modulo 2^64 in Release; `debug_assert!` only fails in Debug. Theorems quantify over `pr` unless they say otherwise.
* **Nibbles** is modelled as in the code: `count` and a 512-bit `packed` number (both `N`). The sequence view used by the
  specifications is `nseq : nibbles -> list N`. Keys of the trie theorems have at most 64 nibbles (`kwf`), the documented limit.
* **Tries**: `node := Empty | Hash h | Branch children value | Extension nibbles child | Leaf nibbles value`; `children` is a
  list whose length 16 is part of `wf`. `wf L` says that the node is a value of the Rust type and that no path is longer
  than `L` nibbles. `Arc`/`Box` sharing is not visible for immutable nodes.
* **HashedPartialTrie**: the one mutable shared thing, the hash cell of each node, is modelled with an explicit store: nodes
  carry the address of their cell, operations are programs over `Get`/`Set`/`Alloc` steps (Cache.v). Histories over any
  number of handles, clones, sub-tries, subsets, and interleavings of any number of threads are defined in CacheSpec.v.
* **Iteration** (`PartialTrieIter::next`, a `while` loop) is modelled by its stack; running out of fuel is a separate value and
  C16 shows that it does not happen.
* **Recursion** of the Rust code on the trie is structural recursion here. Stack.v has the recursive functions again with a bound on
  nested calls, for C76 only. Memory exhaustion is not modelled.
* **Debug tools**: statistics including the `f32` averages (Stats.v), path queries (Query.v), trie differences (Diff.v).
  Their text output (`Display`): Text.v, StatsText.v; the text of an `f32` is a parameter there, FloatText.v defines it. In Diff.v `hash()` is computed from the contents; DiffCache.v has the same functions over cells.
* **serde**: Serde.v models the derived `Serialize` and `Deserialize` down to serde's data model (structs, variants, sequences).
  There formats are taken to give back the data they were given.
* **JSON** (the format used by the repository's tests): Json.v models serde_json's mapping of the data model to JSON values, with impl-serde's
  texts for `U512` and `H256`, and the derived `Deserialize` with the other forms that it accepts (missing, reordered and unknown fields,
  arrays for structs), and the default nesting limit. JsonText.v models the characters: serde_json's compact and pretty writers, and a reader for
  all JSON texts (numbers, escapes, surrogate pairs, blanks). serde_json's own source is not in /repo, so these follow its documented behaviour.
  Known differences: strings of hex digits with blanks in them are refused (impl-serde skips the blanks); in values that are ignored, unpaired
  surrogate escapes are refused and the nesting counts for the limit; texts are taken to be UTF-8.

| Rust file | model |
|---|---|
| nibbles.rs, utils.rs (`is_even`, `create_mask_of_1s`) | Nibbles.v: every public function and trait implementation that is not derived, plus `Eq`/`Ord`/text |
| partial_trie.rs (`Node`, `StandardTrie`, trait `PartialTrie`, `Deref`) | Trie.v |
| partial_trie.rs (`HashedPartialTrie`) | Cache.v, Locks.v (its locks) |
| trie_ops.rs | Trie.v (operations, iterator), Values.v (`ValOrHash` conversions), Trace.v (`trace!` logging), HIter.v (the iterator of the caching trie) |
| trie_hashing.rs | Hashing.v (encodings), Rlp.v |
| trie_subsets.rs | Subset.v, Cache.v (for the caching trie) |
| debug_tools/{common,query}.rs | Query.v, Text.v, QueryBuild.v |
| debug_tools/diff.rs | Diff.v, DiffCache.v (for the caching trie), Text.v |
| error types of nibbles.rs and trie_subsets.rs, messages | Errors.v, HErrors.v (not: the message of `StrToNibblesError`, which is another crate's) |
| `Debug` output, derived and by hand, of keys, values, tries, reports, errors, statistics | DebugText.v, FloatDebug.v |
| derived `Hash`, `PartialEq` of keys, values, paths, difference points | HashKey.v |
| derived `Serialize`/`Deserialize` | Serde.v, Json.v, JsonText.v, Binary.v |
| debug_tools/stats.rs | Stats.v, StatsText.v, FloatText.v, FloatDebug.v |

**Not modelled:** other data formats than JSON and bincode (with its default options), `info!` logging in the test helpers, `Arc` pointer identity, memory
exhaustion, stack exhaustion elsewhere than in C76, and the programs in examples/ (but see T_Upstream.v, C68 and C69 for what they do with the API). Of
testing_utils.rs the generators and the tests that use them are modelled (RandomTests.v, C73), but not the random number generator: any words may be drawn.

## 3. Files

Model: Base, Nibbles, Trie, Rlp, Hashing, Keccak, Subset, Cache, Locks, Stats, Values, Query, Diff, DiffCache, Serde,
Text, StatsText, FloatText, Trace, Errors, HIter, Json, JsonText, DebugText, FloatDebug, HErrors, IterCost, RandomTests, Binary, HashKey, QueryBuild, Stack, StackDerived.
Specification vocabulary: NibblesSpec, TrieSpec, TrieHistSpec, YellowPaper, HashSpec, HideSpec, SubsetSpec, ReleaseSpec, CacheSpec,
StatsSpec, QuerySpec, ReplaySpec, Caught, CostSpec, TextSpec, GetSpec, OrderSpec, FloatSpec, SharingSpec, TraceSpec, ErrorsSpec, ItemsSpec, LongSpec, IterSpec, JsonSpec, TypeSpec, JsonTextSpec, DebugTextSpec, FloatDebugSpec, HErrorsSpec, PartialSpec, NeighbourSpec, WitnessSpec, ListSpec, EthSpec, EthProofSpec, EthBuildSpec, UserSpec, CaughtUserSpec, BinarySpec, HashKeySpec, StackSpec, HandSpec, LeastSpec, RefreshSpec, FreeSpec, BlockSpec, ListProofSpec, EthRunSpec, ProfileSpec, MergeSpec, RollSpec, CommuteSpec, NetSpec, LogSpec, TxSpec, TxUserSpec, FollowSpec, FollowAnySpec, FollowerSpec, ServerSpec, FreeServeSpec, FreeServerSpec. Property theorems with examples and `Print Assumptions`: files `P_*`. All others are proofs.
T_Upstream replays on the model, in both build profiles, the repository's own unit tests with fixed inputs, its documentation
examples, examples/simple.rs, examples/hash_nodes.rs, and the first accounts of test_data/pyevm_account_ground_truth.json
(real Ethereum state roots). These are tests of the model's faithfulness, not proofs: no claim in the manifest rests on them.

Naming: `_refuted` proves that the property, as stated, is false of the code, by a concrete witness; `_partial` is the part
that holds (the note in the table says what is missing); all other theorems prove what the property says for their scope.

## 4. How the properties are proved

* C01-C09: the bit-level functions are proved equal to list functions on `enc l`, the encoding of a nibble list, by base-16
  arithmetic; statements about arbitrary values follow from `nseq`/`enc` being inverse.
* C10-C18, C33, C34: `lk t k` is the entry stored in a trie for a key. Insert, get and delete are described on `lk` by induction
  on the trie, with the invariants `wf`, `shape` (holds for all tries reachable by successful calls) and `canon` (holds in
  addition for inserts, and for deletes over prefix-free keys). Histories are lists of calls, compared with a finite map.
* C19, C20, C21, C39, C40: `item t` is the Yellow Paper structure of a node; the hashing code computes its RLP; canonical
  tries have the structure the Yellow Paper gives for their contents; RLP is uniquely readable, so equal roots give equal
  tries or an explicit collision.
* C22-C28: `hides t t'` relates a trie with its partial tries; get, insert and delete are simulated along it; marking keys in
  a tracked trie is compared with the specification `prune`. For the converse in C28 (HideExact.v) two tries whose deletion results
  differ at one node are followed up to the root: unless hashes collide, the difference stays visible in the root hash.
* C12: GetSpec.v says, in terms of the stored keys, where a trie has a stretch of nibbles without a fork; GetExact.v shows by
  induction on canonical tries that lookups differ from the specification `finds` exactly for keys that end in such a stretch.
* C34: if all keys of a list end up stored, every insertion landed at its key, by counting the stored keys and adding up their
  lengths (OrderFacts.v); so a crowded key list has an order that loses a key.
* C64: as C40, following both tries at once and building the trie that both are views of (JoinFacts.v). The history form goes through C28_history_partial (P_Partial.v), which lifts the one-step simulation to histories with a condition on the partial trie alone (PartialSpec.v).
* C65: NeighbourSpec.v says what a neighbour is; NeighbourFacts.v shows that a requested neighbour leaves visible exactly what the collapse of a branch has to look at (the criterion of C28), by induction on the trie; the history form keeps the relation of C42 between trie and subset.
* C66: WitnessSpec.v has the check that a reader of a foreign text needs (a boolean function of the loaded trie); it is proved equivalent to the well-formedness that C40 and C28 assume, and C62 and C65 give the honest texts. Without the check the claim is false, for every hash function: a forged text, and any hash at all in the texts of caching tries.
* C67: IterCost.v has the iterator of Trie.v again, with a counter of the rounds of its loop and of the calls of its walk down; without the counter it is the same iterator; a potential of the stack that every round uses up exactly gives the total cost, and a bound of each stack entry by the height of what is left below it gives the size of the stack. The number of nodes on the way of a key bounds lookups; what the operations log (C54) shows that they look at no others.
* C68: ListSpec.v has a list machine and the same machine over the modelled insert, delete and get with RLP keys; RLP keys are prefix free (RLP decodes uniquely, RlpFacts.v) and their lengths grow with the index, so that the history theorem C10 applies to every step, a lookup beyond the list included; the root and the contents follow from C19, C16 and C34. The limits of the layout are shown beside it: a list with missing entries, and plain integers as keys.
* C69: EthSpec.v has the world state as a table of accounts with tables of slots, the roots that the Yellow Paper defines for it, and the program over tries (the calls of the API that examples/ethereum_trie.rs makes, as part of a program that updates its tries); a relation between tables and tries (EthFacts.v) is kept by every call, by C10's step lemmas for keys of 64 nibbles, and gives the roots by C19. Binding: C21 for the state trie, RLP decodes uniquely, C21 again for each storage trie. Building at once (EthBuildSpec.v models examples/ethereum_trie.rs): the relation is kept by each insert of from_iter, and canonical tries with the same contents are equal (TrieUnique.v).
* C70: the relation of C42 between a trie and its subset, lifted to a client with two levels of tries (P_EthPart.v); deletions by the neighbour criterion of C65. Equal storage tries up to hiding have the same root (C20), so the entries written into the state trie are the same.
* C71: C40 (through the checks of C66) for each of the two tries, with the relation between tables and tries of C69; the storage root is read off the account's entry, which decodes uniquely. Collisions of names are part of the alternative: the names that the reader hashes against those of the state. The honest direction is C70's relation and the text round trip of C62.
* C72: UserSpec.v has programs as trees of calls that branch on the answers; the simulation of C29 is a statement about one call in any state that satisfies its invariant, so induction over the tree gives the general theorem. For the Ethereum program a second relation ties handle numbers to the tries of C69's program: distinct accounts have distinct handles, none is handle 0. Threads: the weakest precondition of one call (C30) gives that of the tree by the same induction, and the pool argument of C30 the rest. Panics that are caught are answers like others (CaughtUserSpec.v); the one-call statements of C43 replace those of C29 and C30.
* C73: RandomTests.v models the generators as the set of their outcomes and the tests as programs that panic or not (iteration with fuel, caching handles where the tests use `HashedPartialTrie`); what each test computes is rewritten with the theorems about single calls (C34 for the order of insertion, C33 for hash nodes, C16 for iteration, C35 and C50 for counts, C24-C26 for subsets, C20 for hash nodes in place of children, C72 for the program that replaces them), which leaves a condition on the draw alone. Failing draws are computed.
* C74: Binary.v models bincode 1.3 with its default options (which is not a dependency of /repo) on top of Serde.v; impl-serde writes numbers and hashes as hex strings also there. The readers of BinaryFacts.v take a
  part of the front of the bytes that does not depend on what follows, by induction over the recursion fuel; from this: streams, prefix-freeness, cut files. Accepted bytes give typed data, by the same induction. The layout is
  stated apart from the writer (BinarySpec.v). The last sentence is false: the format does not say which kind of trie it is, and the tags of the missing cached hashes shift the children (C74_kinds_refuted).
* C75: HashKey.v has the bytes that the derived `Hash` implementations hand to a hasher and the derived `==`; each is uniquely readable, also with other data behind it (P_HashKey.v, by composition). The std
  hash map is modelled as buckets chosen by any function of those bytes.
* C76: Stack.v has every recursive function again, structural on the number of nested calls that there is room for, with a third outcome for an
  exhausted stack; each is shown to agree with the function that the other claims are about, by induction on the room (StackFacts*.v). Levels
  of API tries are bounded by the length of keys (`wf`), those of JSON texts by serde_json's nesting limit. Frames per level are not counted. StackDerived.v does the same for derived code; that loading needs no more than the bytes allow is by what each level reads.
* C77: HandSpec.v says when a list of entries and hashes describes a trie. HandFacts.v finds by induction on the trie the partial trie that
  holds exactly the list, and shows that inserting prefix-free entries stores exactly them; canonical tries with equal contents are
  equal (C17). The converse uses the binding of C40.
* C78: LeastFacts.v shows by induction on the trie that pruning gives the same result on a trie and on a partial trie of it that does not cut
  off a key; the binding of C40 turns equal root hashes into such a partial trie.
* C79: ExcerptFacts.v compares the walk of a path query, the nodes and their depths of a trie and of a partial trie of it by induction
  on the trie; diffs of excerpts follow from equal root hashes (C20, C36).
* C80: operations move no hash node (P_Refresh.v), so the changed excerpt is a partial trie of the changed trie (C42, C65) that cuts off
  no needed key, and has the same subset (C78); rounds by induction.
* C81: the proofs of C42, C65 and C80 with "no key is the beginning of another" (FreeSpec.v) in place of one length (FreeFacts.v): get
  answers rightly unless the key ends inside an extension node (`get_fine`), and a neighbour that is not a beginning of the deleted key
  makes the merge visible.
* C82: by induction over what is hidden, the entries of the trie are the concatenation of one block per entry of the excerpt (P_Block.v);
  the iterator gives the entries (C16), and a hidden canonical subtrie's hash is its Yellow Paper root (C19).
* C83: C40 and C66 for the trie of a list (C68), and the step lemma of C81 with the set of index keys, which is prefix-free; from index 1 on the keys are in
  the lexicographic order of their indices (ListProofFacts.v), so the key before the last shares the longest beginning with it, except for 128 (P_ListProof.v).
* C84: a trie with the root of the state that says something about every name is the full trie with hash nodes elsewhere (C40), and entries determine the
  accounts (C69), so what was received simulates the full client as an excerpt does (C70); removals by C28_local_partial (P_EthRun.v); a requested neighbour makes
  a removal fine to see (NeighbourSeen.v); chains of blocks by induction.
* C85: every function that takes a build profile, by structural induction from the three checked operations of Base.v (ProfileFacts.v); for programs the relation also
  says that they make the same accesses to the cells, so it is kept by any interleaving (ProfileFacts2.v). That nothing differs for changes of tries of the API is by
  the specifications of insert and delete, whose panics do not mention the profile (P_Profile.v).
* C86: the items of the second trie are inserted one by one; none of their keys is a prefix of another, so what was inserted never gets in the way of what follows, and
  what the first trie holds stays, so a clash found at the start is still there when its item is inserted (P_Merge.v). Merging parts by uniqueness of canonical tries.
* C87: the hash nodes of a trie are the same after any such history, so no key that was changed is below one when it is put back; the contents at the end are those at the
  start, and canonical tries with the same contents are equal (P_Roll.v). The journal by induction, one operation at a time; the caching trie by C29.
* C88: by induction over the schedule, with a trie for every caller that agrees with the common one as far as the keys of the caller are concerned; an operation of
  another caller changes neither (P_Commute.v). Excerpts start with such tries (C81); the end by C17, the caching trie by C29.
* C89: contents after each operation by C81's lemmas; hash nodes stay, so panics depend on the changed keys alone; the end by C17 (P_Net.v).
* C90: by induction over the runs: at the keys that the rest of the log does not change, the last change so far is that of the log up to there; then C89 (P_Log.v).
* C91: two tries with the same hash nodes that agree at the keys a program is told about give it the same answers, by induction over the program; every version is the newest one but for the keys changed since, by induction over the commits; then C89 (P_Tx.v). The store of versions and the check are the user's, written down in TxSpec.v; with HashedPartialTrie it is a program over handles (TxUserSpec.v), which C72 applies to (P_TxUser.v).
* C92: by C40 the received trie is the full one with subtrees hidden; a watched operation keeps that relation and answers alike (C27, C28, C42); induction over the program and over the rounds. The texts exist by C62, C65 and held_collapse (P_Follow.v). For any keys, also ones that start others, the same with the full trie instead of the map (P_FollowAny.v). The one who follows is user code, stated in FollowSpec.v and FollowAnySpec.v and written as a program in FollowerSpec.v; the program accepts exactly what is stated (P_Follower.v). The one who serves is a program too (ServerSpec.v), which finds the neighbours itself (P_Server.v). For keys of different lengths, none the beginning of another, texts exist by C81 and free_held_collapse (P_FreeServe.v). The server program makes them (P_FreeServer.v).
* C49: pruning commutes with pruning for fewer keys, by induction (ComposeFacts.v). C50: counting branches against entries, by
  induction on canonical tries (SizeFacts.v).
* C51: forward simulation from lock steps to atomic steps, with an invariant that counts the holders of every lock; the threads'
  programs are well-founded, so there is no endless run.
* C15: AbsentFacts.v says what `delete` does with a key that is not stored, by induction on canonical tries.
* C14, C15, C33: DeleteExact.v follows `delete` on a stored key that is not deletable, and on an absent key whose deletion succeeds; P_DeleteExact.v turns both into a complete case analysis on the stored keys.
* C47: arithmetic on `undigits`.
* C48: the printed text equals a specified text; the texts are read back from the left, cutting at characters that the printed pieces
  cannot contain.
* C52: the error of each `f32` operation is bounded in rational arithmetic, from the definitions of `SpecFloat`; the errors are multiplied up.
* C43: `catch` turns a failing program into one that returns `None`; whenever the operation on plain values panics, the program
  over the cells fails too and has written only right hashes, so the invariant of C29 survives. On a panic the effect on `*self`
  is read off the code: `insert` and `delete` assign it last, `extend` after each element.
* C42: two tries that agree along the requested keys stay so under every operation; `hides` is kept for the root hashes.
* C29-C32: weakest preconditions for programs over cells; invariants of the store for histories and interleavings.
* C44, C45: saving and loading (and comparing) are programs over the cells like the other operations, and part of the histories of
  C29-C32 and C43. That branches always have 16 children is proved for all histories.
* C46: the cost counts reads of cells. Invariant: the cell of an inner node is filled only when few nodes below it would have to be
  looked at (each child is cached or encoded in less than 32 bytes, so it has at most 31 nodes without cached hash). Every operation
  creates a number of nodes bounded by the key length, and each new node adds a bounded amount.
* C53: induction on the trie, counting allocations and following which old nodes end up in the result; for histories with the depth
  bound of C50.
* C54: a second model of the operations with a log; induction on the trie that formatting succeeds for the keys in it, for which `delete`
  has to keep them short. The lines of the way back: induction along the trail with what is left of the subtree (nothing, an extension node, a branch node).
* C55: from the exact conditions of the errors (C05, C25, C47); the texts of numbers and bytes are read back. For caching tries (HErrors.v) marking
  with a text is compared with marking without one, node by node; the rest follows, for one thread and for pools of threads.
* C56: the items are the entries in tree order (C16); induction on the tree shows them sorted by a strict total order, so contents determine the list. Single calls: induction on the number of calls over the iterator's stack invariant.
* C57: induction over the items. In iteration order all longer keys come before the key they extend, so an insertion lands at its key exactly if the key is not narrow; the converse counts entries and key lengths.
* C58: the induction of delete and of the iterator again with the bound 127 on depths, where each join of key parts either stays within 64 nibbles or panics; a trie whose stored keys are all short has depth at most 64 (`short_wf`), so the earlier theorems apply to it. LongDelete.v: the exact criterion for a panic of delete, by following the code and the stored keys side by side down to the branch that collapses.
* C59: the iterator is modelled again over nodes with cells (HIter.v); erasing the cells commutes with it, and no other step touches its state. Programs with iterators are then simulated by programs over values in which an iterator is a list.
* C60: an encoding of less than 32 bytes has at most 31 nodes (each node takes at least one byte); the number of touched nodes grows by at most the depth + 1 for each key; each touched node keeps at most 16 untouched children. For caching tries, allocation is counted exactly.
* C61: induction on documents; reading a struct from an object depends only on the entries that have the names of its fields. The program that
  loads a handle is compared with a plain function from documents to data (`load`), so each allowed rewriting has to be checked only there. For
  histories, every operation is shown to make values of the Rust types from such values (TypeFacts, TypeFacts2).
* C62: the reader is a machine that takes one character at a time. Completeness: induction on the grammar, with any stack below. Soundness: an
  invariant that relates the state of the machine to a beginning of a text in the grammar. What the writers make is shown to be in the grammar by
  induction on documents; the rest follows from both and C61.
* C63: the output is first a tree of builder calls; a text on one line can be parsed back into its tree (the words between the punctuation are
  determined by their characters), and the indented text becomes the one on one line when its line breaks are taken out, so both identify
  the tree, and the tree identifies the data. For caching tries, what a reader sees in the cells is a parameter of the text; the program logic of C29 gives
  what can be seen in threads. An `f32` is printed with the fewest digits between the ends of the numbers that are rounded to it (exact integer arithmetic);
  reading the text as a decimal number gives back a point between them, so the text identifies the number.
  For the fewest digits: between the ends lies no multiple of a greater power of ten; a number with fewer digits and a smaller power of ten would have a
  power of ten between it and the chosen number. The least and the greatest `f32` with 24 bits are left out there.
* C35-C38, C41: induction on tries, exact case tables, witnesses.

## 5. Properties, status and theorems

<!-- table: generated by tools/gen_manifest.py -->
| id | property | status | theorems | note |
|---|---|---|---|---|
| C01 | Nibbles operations are sequence operations | proved | `C01_get_nibble`, `C01_get_nibble_range`, `C01_get_next_nibbles`, `C01_truncate_front`, `C01_truncate_back`, `C01_pop_next_nibble_front`, `C01_pop_next_nibble_back`, `C01_pop_nibbles_front`, `C01_pop_nibbles_back`, `C01_push_nibble_front`, `C01_push_nibble_back`, `C01_push_nibbles_front`, `C01_merge_nibble`, `C01_merge_nibbles`, `C01_split_at_idx`, `C01_split_at_idx_prefix`, `C01_split_at_idx_postfix`, `C01_reverse`, `C01_from_nibble`, `C01_is_empty`, `C01_full_width_refuted` | All operations, both profiles, up to 127 nibbles (documented limit 64). C01_full_width_refuted shows the struct's 128th nibble is not usable. |
| C02 | Documented Nibbles panics | partial | `C02_debug_partial`, `C02_get_nibble_partial`, `C02_pop_empty_partial`, `C02_pop_back_empty_debug_partial`, `C02_split_release_partial`, `C02_append_partial`, `C02_merge_partial`, `C02_from_nibble_partial`, `C02_find_diff_equal_partial`, `C02_release_refuted`, `C02_refuted`, `C02_debug_exact`, `C02_release_exact`, `C02_release_value`, `C02_append_exact`, `C02_views_exact` | False as stated: in Release builds out-of-range reads and pops return values (C02_release_refuted, C02_refuted, with the value in C02_release_value). Proved instead: exactly which calls panic, for every key and every argument, in Debug builds (C02_debug_exact: precisely the out-of-range ones), in Release builds (C02_release_exact: by the distance modulo 2^62), and the append/compare panics in both (C02_append_exact). |
| C03 | Common prefix computation | proved | `C03_find_diff`, `C03_find_diff_equal`, `C03_lcp_spec`, `C03_identical` | Both differing-index functions and the identical-prefix test. |
| C04 | Hex-prefix encoding is the Yellow Paper HP function | proved | `C04_hex_prefix`, `C04_injective` | Equal to Yellow Paper HP for every key up to 127 nibbles, injective. |
| C05 | Hex-prefix decoding inverts encoding | partial | `C05_roundtrip_partial`, `C05_leaf_refuted`, `C05_rejects_partial`, `C05_empty_refuted` | False as stated: every leaf encoding decodes to the key plus nibbles 1,0 (C05_leaf_refuted) and the empty input panics. Proved: extension encodings round trip, exact description of the decoder on every byte string. |
| C06 | Integer keys | proved | `C06_to_nibbles`, `C06_byte_padded`, `C06_injective` | Any width; digits without leading zeros, padded variant, injectivity. |
| C07 | Byte keys | partial | `C07_from_bytes_be_partial`, `C07_from_bytes_le_partial`, `C07_rejects_partial`, `C07_limit_refuted`, `C07_h256_partial`, `C07_bytes_be_partial` | The documented 32 byte limit is not enforced, 33 bytes are accepted (C07_limit_refuted). Everything else proved, with the limit 33. |
| C08 | Hex text round trip | proved | `C08_format`, `C08_roundtrip`, `C08_parse`, `C08_printed`, `C08_accepted`, `C08_rejected` | Formatting up to 128 nibbles, round trip, exact parser behaviour; C08_printed, C08_accepted and C08_rejected spell the characters out. |
| C09 | Key equality and order | proved | `C09_equality`, `C09_order`, `C09_total_order` | Equality is sequence equality, order is shortlex, total order laws. |
| C10 | Fixed-length key tries are maps | proved | `C10_fixed_length`, `C10_prefix_free` | All histories of insert/extend/delete/get over keys of one common length (and over any prefix-free key set), both profiles, no bound on the history. |
| C11 | Every stored key is found | proved | `C11_reachable_invariant`, `C11_get_stored`, `C11_items_get` | For every trie reachable by successful operations, any key lengths, both profiles; also stated with items(). |
| C12 | Absent keys are not found | partial | `C12_refuted`, `C12_release_refuted`, `C12_long_partial`, `C12_debug_exact_partial`, `C12_exact_partial`, `C12_sound_partial` | False as stated (C12_refuted, C12_release_refuted): a strict prefix or extension of a stored key can be 'found', and Debug panics on keys shorter than an extension. Proved: the exact answer of both builds to every key in canonical tries, in terms of the stored keys (C12_exact_partial); true for keys at least as long as every stored key without a stored strict prefix; soundness for all reachable tries. |
| C13 | Insert touches only its key | partial | `C13_refuted`, `C13_insert_exact_partial`, `C13_insert_one_key_partial`, `C13_insert_partial`, `C13_empty_value_refuted` | False as stated (C13_refuted): a key ending inside an extension is written to another key; empty values do not persist. Proved: exact condition on the stored keys under which insert is right (iff), and one-key-changes for all reachable tries. |
| C14 | Delete removes only its key | partial | `C14_three_ways`, `C14_panics_iff`, `C14_loses_iff`, `C14_refuted_lost`, `C14_refuted_panic`, `C14_delete_exact_partial`, `C14_delete_partial`, `C14_delete_any_partial` | False as stated (C14_refuted_lost, C14_refuted_panic). Proved: exact condition on the stored keys (iff) under which delete is right; the three ways a delete of a stored key of a canonical trie can end, each decided by the stored keys (C14_three_ways, C14_panics_iff, C14_loses_iff); and what holds in all reachable tries. |
| C15 | Deleting an absent key is a no-op | partial | `C15_three_ways`, `C15_refuted`, `C15_absent_partial`, `C15_exact_partial`, `C15_damage_partial` | False as stated (C15_refuted): Some([]) for absent keys at branches, and another key's value deleted below extensions. Proved: exactly when the claim holds, in terms of the stored keys (C15_exact_partial); for every absent key of a canonical trie, what delete does (C15_three_ways); and all that a successful delete of an absent key can do in any reachable trie (C15_damage_partial). |
| C16 | Iteration is exact | proved | `C16_items`, `C16_keys_values` | Every reachable trie, both profiles, including termination of the iterator loop. |
| C17 | Structure depends only on contents | proved | `C17_histories`, `C17_canonical` | Histories over prefix-free keys; also all canonical tries including hash nodes and nested keys. |
| C18 | Insert then delete restores the trie | proved | `C18_insert_delete`, `C18_histories` | Fresh means prefix-incomparable with the stored keys (comparable fresh keys fail through C13/C14). Canonical tries, hash nodes allowed. |
| C19 | Root hash is the Ethereum root hash | proved | `C19_canonical`, `C19_history`, `C19_fixed_length`, `C19_items`, `C19_prefix_keys_refuted`, `C19_any_keys` | For every hash function with 32-byte outputs, canonical tries and every prefix-free history; keys of any lengths in every order in which the contents are right (C19_any_keys, with the criterion of C34_exact_partial); specification checked against the Ethereum test vector 'dogs'. C19_prefix_keys_refuted shows that outside this scope (deleting a key that is a prefix of another) the hash can be wrong. |
| C20 | Hash nodes stand for subtrees | proved | `C20_hiding_keeps_root`, `C20_small_subtree` | hides = any set of subtrees with encodings of at least 32 bytes replaced; C20_small_subtree is the counterexample for smaller ones. |
| C21 | Root hash binds the contents | proved | `C21_binding` | For tries without hash nodes; the collision is among the encodings of their nodes. |
| C22 | Subset keeps the root hash | proved | `C22_root_hash`, `C22_batch_root_hash` | Both profiles, any keys; single subsets and batches, for every hash function with 32-byte outputs. |
| C23 | Subset keeps requested keys | proved | `C23_requested`, `C23_other` | Both profiles; the requested part needs no well-formedness at all. |
| C24 | Subset hashes out everything else | partial | `C24_filled`, `C24_release_exact`, `C24_exact`, `C24_fixed_length`, `C24_order_irrelevant`, `C24_short_key_refuted` | The subset is exactly the pruned trie in debug builds, and in release builds unless a key ends inside an extension node; C24_short_key_refuted shows that case keeps extra nodes in release builds, and C24_release_exact says exactly which: the key counts as if its rest were zeros. |
| C25 | Subset errors | partial | `C25_short_key_refuted`, `C25_errors_partial`, `C25_fixed_length`, `C25_debug_exact`, `C25_error_key`, `C25_error_names` | Debug builds panic on a key that ends inside an extension node (C25_short_key_refuted). Everything else of the claim is proved: release builds completely, debug builds with the exact condition. |
| C26 | Batch subsets are independent | partial | `C26_release_exact_partial`, `C26_refuted`, `C26_supersets_partial`, `C26_success_partial`, `C26_first_error_partial`, `C26_first_panic_partial`, `C26_first_list_partial`, `C26_exact_partial`, `C26_independent_partial` | False as stated (C26_refuted): marks are not cleared below the children of the root. Proved: exact description of what a batch returns, in release builds for keys of any lengths; the batch succeeds iff all single calls do, the requested values and the root hash are kept, and equality when lists use different root children. |
| C27 | Inserting in a partial trie matches the full trie | proved | `C27_insert`, `C27_extend`, `C27_get` | Insert and extend, both profiles, any well-formed trie and entry; get on a partial trie gives the full trie's value or None. |
| C28 | Deleting in a partial trie matches the full trie | partial | `C28_refuted`, `C28_delete_partial`, `C28_exact_partial`, `C28_local_partial`, `C28_history_partial` | False as stated: deleting next to a hidden leaf or extension gives a different root hash (C28_refuted). Proved when the merge does not meet a hidden leaf or extension, and, up to hash collisions, only then (C28_exact_partial); the deleted value always agrees. C28_local_partial and C28_history_partial need only what the partial trie itself shows: no collapse meets a Hash node. |
| C29 | Cached hashes are never stale | partial | `C29_clone_refuted`, `C29_subtrie_refuted`, `C29_assign_refuted`, `C29_make_refuted`, `C29_clones_partial`, `C29_uncloned_partial`, `C29_discipline_partial`, `C29_same_partial` | False as stated: a clone shares the root cell of the original, so a hash cached for the changed clone is returned for the original (C29_clone_refuted); also for a node taken out of a trie (C29_subtrie_refuted), for a handle that was made a child of a node built by hand and is then changed (C29_make_refuted), and for an assignment through DerefMut (C29_assign_refuted). Proved for all histories without handles for inner nodes, without handles that become children, and without subsets for no keys (C29_clones_partial), for all histories without clones (C29_uncloned_partial), and under a discipline per handle, which allows nodes built by hand from handles that are not changed afterwards (C29_discipline_partial). |
| C30 | Concurrent hashing is safe | proved | `C30_threads`, `C30_readers`, `C30_finishes`, `C30_fair` | Every schedule, any number of threads. Each access to a lock is one atomic step. Threads that only read may start from any disciplined history, threads that change their clones from any tame one. |
| C31 | Equality is structural and ignores caches | proved | `C31_equal_iff`, `C31_standard_equal_iff`, `C31_equivalence`, `C31_equal_hashes` | For both trie types. Equal hashes of equal handles under the discipline of C29. |
| C32 | Clones are snapshots | proved | `C32_unchanged`, `C32_contents` | For all histories; C32_unchanged for arbitrary cache contents. |
| C33 | Hash nodes are opaque | proved | `C33_delete_panics_iff`, `C33_get`, `C33_insert_panics`, `C33_delete_panics`, `C33_insert_value_panics_iff`, `C33_insert_hash_panics_iff` | get gives None; insert/delete panic below a hash node; exact panic condition for inserting values and hashes, and for deleting any key. |
| C34 | extend and from_iter | partial | `C34_spaced_partial`, `C34_short_first_partial`, `C34_order_exact_partial`, `C34_exact_partial`, `C34_in_time`, `C34_extend_app`, `C34_order_refuted`, `C34_from_iter_partial`, `C34_order_partial` | Order independence is false for keys that are prefixes of others (C34_order_refuted). Proved: for distinct keys it holds if and only if no key is a strict prefix of two others that continue it with the same nibble (C34_order_exact_partial); for one given order, the contents are right if and only if no key comes after two or more longer keys that all continue it with the same nibble (C34_exact_partial; with repeated keys, if), in particular with shorter keys first; extend over append holds for all inputs. |
| C35 | Trie statistics are exact | proved | `C35_exact`, `C35_fits`, `C35_totals`, `C35_entries`, `C35_compare` | For every trie whose counts and depth sums are below 2^64, in particular every trie of less than 2^32 nodes. The averages are stated as f32 quotients (Coq's SpecFloat). Text output: C48. |
| C36 | Trie diff | partial | `C36_equal`, `C36_types_refuted`, `C36_root_partial`, `C36_extensions_partial`, `C36_sound_partial`, `C36_none_iff_partial`, `C36_panic_refuted`, `C36_panic_hash_refuted`, `C36_missed_refuted` | False: panics when node types differ (C36_types_refuted, C36_panic_refuted, C36_panic_hash_refuted), and misses differences below extensions with different nibbles (C36_missed_refuted). Proved: no report for equal hashes, reports are real and describe the nodes, exact case table for tries as the operations build them. |
| C37 | Path query | partial | `C37_panic_refuted`, `C37_stored_refuted`, `C37_absent_refuted`, `C37_path_partial`, `C37_exact_partial`, `C37_no_panic_partial`, `C37_output`, `C37_mask` | False: panics for keys that end at a branch (C37_panic_refuted), extension nodes do not use up the key, so stored keys are missed with a wrong path (C37_stored_refuted), and absent keys can be reported as found (C37_absent_refuted). Proved: exact behaviour for every trie and key, correctness without extension nodes on the way, output well-formed, child masks. |
| C38 | Integer values | partial | `C38_prim`, `C38_u256`, `C38_u128_refuted`, `C38_u128_release_refuted`, `C38_u512_refuted`, `C38_injective_partial`, `C38_bytes` | False for U512 (always panics: C38_u512_refuted) and U128 (panics in Debug; Release writes 16 extra zero bytes: C38_u128_refuted, C38_u128_release_refuted). Proved for u8 to u64 and U256. |
| C39 | Empty trie hash | proved | `C39_empty_hash`, `C39_history`, `C39_prefix_free`, `C39_any_keys`, `C39_only_empty` | With the executable Keccak-256. |
| C40 | A partial trie with the right root hash is sound | proved | `C40_partial_trie_binding`, `C40_get_sound`, `C40_contents` | Added while modelling: binding for partial tries. |
| C41 | Depth of a reported difference | partial | `C41_depth_always_zero`, `C41_depth_refuted` | False (C41_depth_refuted); C41_depth_always_zero describes the actual behaviour. |
| C42 | A subset is enough to replay operations on its keys | proved | `C42_outputs`, `C42_batch_outputs`, `C42_roots`, `C42_roots_deletes`, `C42_history` | Histories of any length, hash nodes in the full trie allowed. C42_roots_deletes adds deletes that do not merge a hidden leaf or extension (C28 shows why this is needed); C42_history states everything from the empty trie against a plain map and the Yellow Paper root. |
| C43 | Caught panics do no damage | partial | `C43_extend_refuted`, `C43_clones_partial`, `C43_uncloned_partial`, `C43_discipline_partial`, `C43_no_panics`, `C43_extend_prefix`, `C43_threads` | False as stated: an extend that panics does not clear the cached hash of the root (C43_extend_refuted). Proved for all programs without handles for inner nodes and subsets for no keys, with any panics; for programs without clones in which no extend panics; in general for a discipline per handle; and for threads. |
| C44 | Saving and loading | partial | `C44_nibbles`, `C44_roundtrip`, `C44_histories`, `C44_injective`, `C44_loaded`, `C44_handle_contents`, `C44_handle_loads`, `C44_copies`, `C44_handle_hash_partial`, `C44_equal_refuted`, `C44_forged_refuted`, `C44_malformed_refuted` | Round trip, injectivity and absence of panics proved for every trie and every data. False parts: equal handles may be saved as different data since cached hashes are part of it (C44_equal_refuted); foreign data may hold wrong hashes (C44_forged_refuted) or keys on which get panics (C44_malformed_refuted). Hashes of loaded handles are right in all programs without handles for inner nodes and assignments, with copies by save and load (C44_copies), and under the discipline of C29. Down to serde's data model; formats are taken to be lossless. |
| C45 | Trie diff does not depend on cached hashes | partial | `C45_contents_partial`, `C45_equal_partial`, `C45_clone_refuted` | False as stated, through C29: a stale hash shared by a clone hides a difference (C45_clone_refuted). Proved under the discipline of C29; C29's and C30's theorems cover comparisons anywhere in histories and threads. |
| C46 | hash() is incremental | proved | `C46_changes`, `C46_unchanged`, `C46_copies`, `C46_once`, `C46_root_recomputed` | Handles for inner nodes, nodes built by hand and assignment through DerefMut are left out of the bound (not of C46_once). The constant is not tight. C46_root_recomputed: the hash of the root node itself is never stored, so hash() of an unchanged trie still looks at the children of the root. |
| C47 | Keys back to integers | proved | `C47_try_into_u256`, `C47_long_panics`, `C47_roundtrip`, `C47_back`, `C47_h256`, `C47_num_nibbles`, `C47_min_bytes` | A key with non-zero unused bits (not well-formed) can panic; a key that claims more than 128 nibbles does (C47_long_panics). |
| C48 | Printed reports | proved | `C48_builder`, `C48_plain_key`, `C48_stats_text`, `C48_stats_calls`, `C48_stats_unambiguous`, `C48_comparison_unambiguous`, `C48_comparison_lines`, `C48_query_text`, `C48_query_unambiguous`, `C48_default_query`, `C48_path_text`, `C48_path_unambiguous`, `C48_diff_text`, `C48_diff_unambiguous`, `C48_decimal` | Derived Debug output: C63. Writing to the formatter does not fail. The text of f32 numbers is any text without line breaks here; C52 has the actual one. C48_stats_text is for tries with fewer than 2^64 nodes. |
| C49 | Subsets can be narrowed | proved | `C49_narrow`, `C49_monotone`, `C49_all_keys` | Both profiles, keys of any lengths (also keys that end inside an extension node). |
| C50 | Size and depth | proved | `C50_nodes`, `C50_inserted`, `C50_history`, `C50_nested_deletes_refuted`, `C50_depth`, `C50_stats_depth` | C50_nested_deletes_refuted shows that deletes of keys that are prefixes of other keys leave branches with one child behind. The recursion depth is the depth of the nodes: all modelled functions on tries recurse structurally. |
| C51 | Locks | proved | `C51_no_races`, `C51_no_deadlock`, `C51_no_livelock`, `C51_ends`, `C51_results`, `C51_fair`, `C51_panics` | At the level of single lock operations. A panic does not happen under a lock; parking_lot locks are not poisoned. Also for programs that catch panics (C51_panics). The lock itself (parking_lot) is modelled, not verified. |
| C52 | Accurate averages and percentages | proved | `C52_text`, `C52_one_line`, `C52_averages`, `C52_shares`, `C52_report`, `C52_ratios`, `C52_average_ratios` | The reports are those of C48 with f32_text for the numbers. C52_text: every f32 is printed as the nearest decimal number (for the rounding of ties see the model). |
| C53 | Changes are local | proved | `C53_insert`, `C53_delete`, `C53_extend`, `C53_reachable`, `C53_reading`, `C53_versions` | Counted in the model: one cell per node. The tries inside StandardTrie have no cells; the same code builds them. |
| C54 | Logging shows what happens and changes nothing | proved | `C54_off`, `C54_same`, `C54_same_extend`, `C54_reachable`, `C54_malformed_refuted`, `C54_trail`, `C54_get_lines`, `C54_insert_lines`, `C54_delete_lines`, `C54_covers`, `C54_delete_back`, `C54_delete_count` | Modelled for the nodes of StandardTrie; no log line shows the hash cells of HashedPartialTrie. C54_malformed_refuted: the condition on keys is needed. |
| C55 | Error messages | partial | `C55_bytes`, `C55_u256`, `C55_flags`, `C55_too_long`, `C55_too_long_refuted`, `C55_limit_refuted`, `C55_subset`, `C55_subset_key_refuted`, `C55_handle_same`, `C55_handle_subset`, `C55_handle_subsets`, `C55_handle_any_threads`, `C55_handle_threads`, `C55_handle_equal_refuted` | False in two places. The message for a hex-prefix text that is too long has its two fields swapped and the wrong limit (C55_too_long_refuted, C55_limit_refuted). The message for a subset shows only the rest of the key below the hash node (C55_subset_key_refuted). Proved: the exact text of every message, and that it names the input correctly otherwise. For a HashedPartialTrie the text also shows the cell of the hash node, so it can differ between equal tries (C55_handle_equal_refuted); proved: the exact text, alone and with other threads, and that making it changes nothing. The message of Nibbles::from_str comes from another crate. |
| C56 | Iteration order, and single calls of the iterator | proved | `C56_before`, `C56_order`, `C56_ascending`, `C56_same_items`, `C56_next` | Order, ascending for one length, determined by the contents, single calls of next(). |
| C57 | Rebuilding a trie from its items | partial | `C57_contents`, `C57_same`, `C57_prefix_free`, `C57_contents_refuted` | False for keys that are prefixes of others (C57_contents_refuted). Proved exactly: for every reachable trie the contents are rebuilt if and only if no key is narrow (C57_contents), and the same trie if and only if it is also in canonical shape (C57_same); in particular for prefix-free keys with any hash nodes. |
| C58 | Keys of more than 64 nibbles | partial | `C58_insert_partial`, `C58_get_partial`, `C58_hash_partial`, `C58_items_partial`, `C58_listable`, `C58_delete_partial`, `C58_delete_exact`, `C58_delete_any_partial`, `C58_items_refuted`, `C58_delete_refuted` | False: items() and delete panic for keys of 33 bytes that insert accepted (C58_items_refuted, C58_delete_refuted). Proved for every trie built with keys of at most 127 nibbles: insert and get are right; the hash never panics and is the Yellow Paper root in canonical tries; the iterator gives exactly the items before the first longer key and then panics (C58_items_partial), so all items are listed exactly if no stored key is longer than 64 nibbles (C58_listable); a successful delete is right; in canonical tries a delete of a stored key without a stored strict prefix panics exactly if, below some prefix of it, all other keys share more than 64 further nibbles from which it departs (C58_delete_exact). |
| C59 | Iterators are snapshots | proved | `C59_values`, `C59_clones`, `C59_snapshot`, `C59_items`, `C59_next`, `C59_open` | HashedPartialTrie. Programs with iterators observe what they would with plain values and lists of items (C59_values, under the discipline of C29 for hashes; C59_clones); the answers of an iterator are those of the trie at the time of opening without any such hypothesis (C59_snapshot, C59_items, C59_next). |
| C60 | Subsets are small | proved | `C60_size`, `C60_keys`, `C60_no_larger`, `C60_batch`, `C60_new_nodes`, `C60_new_nodes_batch` | Bound on the nodes of a subset in the number of keys (C60_size, C60_keys) and by the trie itself (C60_no_larger); batches, where the keys of earlier lists count because marks leak (C60_batch, see C26); new nodes of caching tries, counted exactly (C60_new_nodes, C60_new_nodes_batch). |
| C61 | Saving and loading as JSON | partial | `C61_roundtrip`, `C61_built`, `C61_injective`, `C61_loaded`, `C61_handle`, `C61_handle_contents`, `C61_histories`, `C61_handle_histories`, `C61_cells`, `C61_no_panic`, `C61_no_hash`, `C61_kinds`, `C61_forms`, `C61_forms_handle`, `C61_order`, `C61_order_handle`, `C61_twice`, `C61_limit_refuted`, `C61_limit_exact`, `C61_limit_handle_exact`, `C61_limit_partial`, `C61_limit_handle_partial`, `C61_short_keys_partial` | Proved for all documents, except the last part of the last sentence: with serde_json's default limit of 128 the text of a deep trie is refused (C61_limit_refuted: 50 keys of at most 50 nibbles). Which tries are accepted is stated exactly (C61_limit_exact, C61_limit_handle_exact); at most 42 nodes on a way down (31 for caching tries), so keys of at most 41 nibbles, are enough (the _partial theorems). |
| C62 | JSON texts of tries | partial | `C62_grammar`, `C62_unique`, `C62_limit`, `C62_from_str`, `C62_same`, `C62_written`, `C62_roundtrip`, `C62_roundtrip_limit_partial`, `C62_roundtrip_limit_exact`, `C62_handle_limit_exact`, `C62_roundtrip_limit_refuted`, `C62_built`, `C62_injective`, `C62_loaded`, `C62_handle`, `C62_handle_contents`, `C62_histories`, `C62_handle_histories`, `C62_no_panic`, `C62_trailing`, `C62_cut`, `C62_cut_handle`, `C62_ascii`, `C62_ascii_handle`, `C62_pretty`, `C62_layout`, `C62_layout_handle` | Proved, except the last part of the last sentence: with the default nesting limit the text of a deep trie is refused (C62_roundtrip_limit_refuted, the same defect as in C61). Which tries are accepted is stated exactly (C62_roundtrip_limit_exact, C62_handle_limit_exact). |
| C63 | Debug output | partial | `C63_api_query`, `C63_api_query_keys`, `C63_api_diff`, `C63_float`, `C63_float_identifies`, `C63_float_shortest`, `C63_float_layout`, `C63_float_sign`, `C63_stats`, `C63_comparison`, `C63_api_stats`, `C63_api_comparison`, `C63_trie`, `C63_long_panics`, `C63_same_iff`, `C63_identifies`, `C63_api_tries`, `C63_hidden_bits_refuted`, `C63_one_line`, `C63_handle`, `C63_handle_panics`, `C63_handle_same_iff`, `C63_equal_refuted`, `C63_any_threads`, `C63_any_threads_identifies`, `C63_threads`, `C63_undisturbed`, `C63_key`, `C63_value`, `C63_query`, `C63_query_output`, `C63_diff`, `C63_bytes_error`, `C63_hp_error`, `C63_subset_error`, `C63_handle_subset_error` | The last sentence is false: hash() fills cells that the text of a caching trie shows and == does not look at (C63_equal_refuted). 'The same text means the same data' needs keys without bits above their digits, which is so for all tries that the API makes (C63_api_tries); otherwise the hidden bits are not shown (C63_hidden_bits_refuted, exact condition in C63_same_iff). Keys of more than 128 nibbles, made by setting the fields, panic (C63_long_panics). Everything else is proved; for statistics with names in printable ASCII (C63_stats). Iterators are opaque to callers. |
| C64 | Partial tries with one root hash never contradict each other | proved | `C64_common_trie`, `C64_get`, `C64_values_agree`, `C64_contents`, `C64_extend`, `C64_insert`, `C64_delete_refuted`, `C64_history`, `C64_delete` | For every hash function with 32-byte outputs, both profiles. The condition on deletes (collapse_visible, PartialSpec.v) is needed: C64_delete_refuted deletes one key from two tries with one root hash and gets two root hashes. |
| C65 | A subset that also covers a neighbour of each deleted key can replay deletes | proved | `C65_replay`, `C65_delete`, `C65_batch`, `C65_history`, `C65_neighbour_needed` | For every hash function with 32-byte outputs, both profiles. C65_neighbour_needed is the counterexample without the neighbour (keccak256). A neighbour is sufficient; the exact criterion for one delete is C28_exact_partial. |
| C66 | A trie received as text is bound by its root hash | partial | `C66_get_partial`, `C66_contents_partial`, `C66_replay_partial`, `C66_check`, `C66_honest`, `C66_refuted`, `C66_cached_refuted` | The full claim is false of the code (C66_refuted, every hash function: the loader accepts key parts with bits beyond their nibbles, with which an extension node is encoded like a leaf; C66_cached_refuted: hash() of a loaded HashedPartialTrie is whatever the text says). Proved for all texts whose loaded trie passes the check of WitnessSpec.v, which C66_check shows to be exactly well-formedness; C66_honest: texts of subsets pass it. |
| C67 | Iterating is linear, a lookup is bounded by the key | proved | `C67_same`, `C67_exact`, `C67_inserted`, `C67_history`, `C67_any`, `C67_memory`, `C67_lookup` | The iterator is modelled again with a counter (IterCost.v; C67_same: its answers are those of the iterator): loop rounds and visited nodes, not machine time. The cost of key arithmetic and of copying a branch's children is constant per step and not counted. C67_exact and C67_memory hold for every trie, the linear bound with 36 steps per item for tries without superfluous branches (as in C50); C67_any has a linear bound with a larger factor for every trie. |
| C68 | A trie used as a list indexed by RLP keys behaves as the list, with its root | proved | `C68_list`, `C68_contents`, `C68_sparse_refuted`, `C68_integers`, `C68_integers_refuted` | The keys are computed in the model from the RLP of the Yellow Paper specification; the program that calls the trie is part of the specification (ListSpec.v), its calls are the modelled insert, delete, get and from_bytes_be. C68_sparse_refuted: with missing entries a lookup can panic in debug builds; C68_integers: plain integers as keys give the right trie when inserted in order, but (C68_integers_refuted) a lookup beyond the list can find another entry. |
| C69 | The tries of the Ethereum state have the state root of the accounts they hold | proved | `C69_state`, `C69_binding`, `C69_build`, `C69_rebuild` | The state tries of examples/ethereum_trie.rs under any sequence of account and slot writes, removals and reads: no panics, right answers, Yellow Paper storage and state roots; equal state roots mean equal accounts and storage, or a collision among the byte strings hashed. Tries built at once by from_iter (C69_build), equal to those of any history (C69_rebuild). The RLP values are made by the caller and are part of the specification vocabulary (EthSpec.v); cached hashes: C72. |
| C70 | An excerpt of the Ethereum state is enough to run a program on it | proved | `C70_excerpt`, `C70_writes`, `C70_neighbour_needed` | Excerpts (subsets of state trie and storage tries) exist, keep the root, and can run every program on the requested names if removed names have a neighbour among them (C70_excerpt), in particular every program that removes nothing (C70_writes). C70_neighbour_needed shows that the condition cannot be dropped. |
| C71 | A root hash is enough to check what a received trie says about the Ethereum state | proved | `C71_account`, `C71_slot`, `C71_honest`, `C71_get_is_not_enough` | Accounts and slots, present or absent, from received texts that pass the checks of WitnessSpec.v and have the right roots (C71_account, C71_slot); the texts of excerpts are accepted and right (C71_honest). Absence has to be read off delete: C71_get_is_not_enough. |
| C72 | Programs that react to what they see get the same from caching tries | proved | `C72_discipline`, `C72_uncloned`, `C72_threads`, `C72_ethereum`, `C72_snapshots`, `C72_panics`, `C72_same`, `C72_caught`, `C72_caught_discipline`, `C72_caught_threads` | Adaptive programs over handles, under the discipline of C29 (C72_discipline, and C72_panics, C72_same: also the same panics) and for programs that make no second handle for inner nodes (C72_uncloned); the Ethereum program with requests for roots at any time (C72_ethereum). Threads on clones running such programs (C72_threads), among them the Ethereum program from a common state (C72_snapshots). Programs and threads that catch panics and go on: C72_caught, C72_caught_discipline, C72_caught_threads. |
| C73 | Which draws of its random generators the crate's own randomised tests accept | proved | `C73_keys`, `C73_key_ranges`, `C73_inserts_fixed`, `C73_inserts_variable`, `C73_inserts_refuted`, `C73_hash_nodes`, `C73_hash_nodes_refuted`, `C73_equivalency`, `C73_get`, `C73_clones`, `C73_iter`, `C73_deletion`, `C73_deletion_refuted`, `C73_hashes`, `C73_deletion_hashes`, `C73_replacing`, `C73_subsets`, `C73_stats` | The random number generator is not modelled: the generators are the sets of keys and values they can give, so the theorems hold for every seed and every size. Exact criteria for C73_inserts_fixed, _inserts_variable, _hash_nodes, _equivalency, _get, _iter, _deletion and _stats (the last for less than 2^27 entries); C73_hashes, _deletion_hashes, _replacing give conditions that suffice. Three tests fail for some draws of distinct keys of random length (the _refuted theorems): the API rounds such keys (C34) or panics in debug builds (C07). |
| C74 | Saving and loading in a binary format | partial | `C74_key`, `C74_roundtrip`, `C74_built`, `C74_stream`, `C74_prefix_free`, `C74_loaded`, `C74_cut`, `C74_layout`, `C74_handle`, `C74_handle_prefix_free`, `C74_handle_loaded`, `C74_histories`, `C74_received`, `C74_kinds_refuted` | All of it is proved for all tries, handles and byte strings, except the last sentence, which is false: C74_kinds_refuted shows a caching trie built with two entries whose bytes are accepted as a plain trie with the entries under other keys (the tags for 'no cached hash' are read as parts of empty children, and bytes left over are ignored). bincode is modelled, not part of the repository. |
| C75 | Keys, values, items and difference points in hash sets and maps | proved | `C75_keys`, `C75_values`, `C75_items`, `C75_paths`, `C75_points`, `C75_maps`, `C75_collect` | The hash map of the standard library is modelled as buckets with any selecting function; numbers are written with the lowest byte first and lengths as 64-bit numbers, which are the defaults on the usual machines. |
| C76 | Recursion depth does not grow with the size of the trie | proved | `C76_any`, `C76_items`, `C76_hash_exact`, `C76_subset_exact`, `C76_levels`, `C76_api`, `C76_build`, `C76_build_steps`, `C76_sharp`, `C76_received`, `C76_json`, `C76_derived`, `C76_derived_api`, `C76_load`, `C76_received_load` | Calls are counted by levels of the trie: each level is a fixed number of stack frames. Derived code (Drop, Debug, Serialize, bincode's Deserialize) is modelled for StandardTrie; HashedPartialTrie derives the same with one more field. |
| C77 | A partial trie built by hand from values and hashes of subtrees | proved | `C77_root`, `C77_cached`, `C77_only`, `C77_small` | C77_root (any order, same trie, same root, values), C77_cached (HashedPartialTrie), C77_only (converse, up to hash collisions), C77_small (why 32 bytes). |
| C78 | A subset is the smallest excerpt that keeps its keys | proved | `C78_least`, `C78_followed`, `C78_any`, `C78_values`, `C78_nothing_more` | C78_least (all partial tries of a trie), C78_followed (also keys that end inside an extension node, in terms of the key a Release build follows), C78_any (all tries with the root hash), C78_values (in terms of get and insert, keys of one length), C78_nothing_more. |
| C79 | Debugging tools on an excerpt of a trie | proved | `C79_query`, `C79_query_complete`, `C79_diff`, `C79_stats` | C79_query, C79_query_complete, C79_diff, C79_stats. |
| C80 | An excerpt can be kept up to date without the complete trie | proved | `C80_refresh`, `C80_rounds`, `C80_history` | C80_refresh (one round), C80_rounds (any number), C80_history (from the empty trie, against a plain map and the Yellow Paper root). |
| C81 | Replaying on excerpts of tries with keys of different lengths | proved | `C81_fixed`, `C81_outputs`, `C81_replay`, `C81_batch`, `C81_refresh`, `C81_rounds`, `C81_map`, `C81_history` | Replaying on subsets (outputs, root hashes, refreshing in rounds, batches) over any prefix-free set of keys, of which keys of one length are a case (C81_fixed); gets of keys that end inside an extension node at the time are excluded (C12). |
| C82 | Iterating over an excerpt of a trie | proved | `C82_items`, `C82_values`, `C82_found`, `C82_subset` | For every canonical trie and everything that hides parts of it; C82_values and C82_subset for complete tries by the Yellow Paper, C82_items for tries that have hash nodes themselves. |
| C83 | Excerpts of lists, and what the root of a list is good for | proved | `C83_entry`, `C83_length`, `C83_honest`, `C83_replay`, `C83_next_root`, `C83_predecessor_refuted` | List proofs (C83_entry, C83_length, C83_next_root), honest excerpts (C83_honest) and programs that go on with an excerpt only (C83_replay). C83_predecessor_refuted: to remove entry 128 the entry before it is not enough; nothing panics, the root is wrong. |
| C84 | Running a program on an excerpt of the Ethereum state from an untrusted source | proved | `C84_run`, `C84_writes`, `C84_honest`, `C84_requested`, `C84_chain`, `C84_served`, `C84_look_needed` | The checks of a received excerpt (received), the run and its answers and root (C84_run, C84_writes), that excerpts pass (C84_honest, C84_requested), chains of blocks from one root hash (C84_chain, C84_served), and that removals have to be looked at (C84_look_needed). |
| C85 | Debug and release builds | proved | `C85_keys`, `C85_tries`, `C85_values`, `C85_texts`, `C85_program`, `C85_threads`, `C85_changes`, `C85_reach`, `C85_get`, `C85_histories`, `C85_same_refuted` | Any call, program or set of threads: a debug build panics or agrees with release. Equality for insert, delete, hash, items on tries of the API and for prefix-free histories; get exactly. That the builds always agree is false (C85_same_refuted). |
| C86 | Merging tries | proved | `C86_panics`, `C86_merge`, `C86_order`, `C86_parts`, `C86_one`, `C86_excerpts` | C86_merge: for canonical tries over prefix-free keys, with hash nodes, the exact outcome; C86_panics: a clash panics for all reachable tries; C86_order, C86_parts, C86_one, C86_excerpts. |
| C87 | Taking changes back | proved | `C87_restore`, `C87_journal`, `C87_read`, `C87_read_fixed`, `C87_cached`, `C87_refuted` | C87_restore (any order), C87_journal (last first), C87_read and C87_read_fixed (what get says is enough), C87_cached (checkpoints of HashedPartialTrie). Without prefix-free keys it is false (C87_refuted). |
| C88 | Independent callers | proved | `C88_alone`, `C88_panics`, `C88_short`, `C88_order`, `C88_excerpts`, `C88_cached`, `C88_refuted` | For gets of keys as long as any in use, so always for keys of one length; C88_short for shorter ones that do not end inside an extension node, C88_refuted shows why. |
| C89 | Only the last change of each key counts | proved | `C89_result`, `C89_panics`, `C89_net`, `C89_compact`, `C89_parallel`, `C89_cached`, `C89_refuted` | C89_panics and C89_compact ask that gets are of keys as long as any in use (always so for keys of one length). Without prefix-free keys it is false (C89_refuted). |
| C90 | Replaying a log after crashes | proved | `C90_log`, `C90_crash`, `C90_cached`, `C90_gap_refuted` | Gets of keys as long as any in use (always so for keys of one length). C90_gap_refuted: with operations left out it is false. |
| C91 | Transactions on snapshots | proved | `C91_serial`, `C91_panics`, `C91_no_panic`, `C91_excerpt`, `C91_unchecked_refuted`, `C91_cached` | The store of versions, the check for conflicts and the commit are the user's and are written down in TxSpec.v and TxUserSpec.v; gets are of keys that no key is longer than (C12). |
| C92 | Following a map from its root hash alone | proved | `C92_follow`, `C92_served`, `C92_careful_needed`, `C92_any`, `C92_program`, `C92_program_any`, `C92_program_limit`, `C92_program_sound`, `C92_program_any_sound`, `C92_program_served`, `C92_served_free`, `C92_server_free`, `C92_server` | C92_follow for every history, list of programs and texts over keys of one length; C92_any for any keys, against the full trie; C92_served: honest texts exist; C92_careful_needed: what is watched has to be; C92_program…: the follower as an executable program accepts exactly these runs; C92_server: an executable server satisfies it for every list of programs; C92_served_free: honest texts exist for keys of different lengths too, and C92_server_free: the server makes them. The collision alternative is concrete. |
<!-- end of table -->

## 6. Defects of the code that the proofs exposed

* Release builds return zero nibbles for most out-of-range nibble reads and pops, and panic for the rest; C02_release_exact says which (C02).
* `from_hex_prefix_encoding` keeps the terminator of leaf encodings (two extra nibbles) and panics on empty input (C05);
  `from_bytes_be` accepts 33 bytes (C07).
* Keys that are prefixes of other keys: `get` finds absent keys or panics (C12), `insert` writes to another key (C13), `delete`
  loses values, panics, or reports `Some([])` for absent keys (C14, C15), and the result depends on the insertion order (C34).
* Deleting next to a hash node builds an extension above the hash and changes the root hash (C28).
* Subsets: a short key panics in Debug builds and keeps too much in Release builds (C24, C25); in batches, marks of earlier key
  lists are kept below the root's children (C26).
* Clones of a `HashedPartialTrie` share the cell of the root, so a clone's hash can be returned for the original (C29).
* An `extend` that panics leaves the elements inserted so far together with the old cached hash (C43).
* Cached hashes are saved and loaded unchecked: equal tries give different data, and loaded data can hold wrong hashes or keys on
  which all operations panic (C44).
* `create_diff_between_tries`: panics when node types differ, misses differences (C36), depth is always 0 (C41).
* Path queries: panics, wrong paths, false positives (C37). `U128`/`U512` values: panics or trailing zeros (C38).
