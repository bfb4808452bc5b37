(** Property C60: a subset is small, however large the trie is. [keccak] is any function with 32 bytes of output. *)
From Verif Require Import Base Nibbles NibblesSpec Rlp YellowPaper Hashing HashSpec HideSpec HashFacts HideFacts Keccak Query Diff Subset SubsetSpec SubsetFacts StatsSpec StatsFacts
  Cache CacheSpec SharingSpec SmallFacts P_Trie P_Hash P_Query P_Diff P_Subset P_Size TrieHistSpec TrieHist Trie TrieSpec TrieFacts.
Open Scope N_scope.

(** The number of nodes of a trie; empty children and nodes that only keep a hash count as well. *)
Definition node_count (t : node) : N := N.of_nat (length (subnodes 0 t)).

(** If no node of the trie is deeper than [d], each key adds at most 497 nodes for each node of a path: the branch, and up to 31 nodes for each
    of its 16 children (more than 31 nodes cannot have an encoding of less than 32 bytes, and longer ones are replaced by their hash). *)
Theorem C60_size : forall keccak pr t ks s d,
  hash32 keccak -> wf 64 t -> fits t -> (forall x, In x (subnodes 0 t) -> fst x <= d) ->
  create_trie_subset keccak pr t ks = Ok (ROk s) ->
  node_count s <= 31 + 497 * (d + 1) * N.of_nat (length ks).
Proof. intros keccak pr t ks s d K W F D E. exact (subset_size keccak K pr t ks s d W F D E). Qed.

(** For the tries that inserts and deletes give, the number of keys is all that counts. *)
Theorem C60_keys : forall keccak pr pr' t ks s,
  hash32 keccak -> reach pr' t -> fits t -> create_trie_subset keccak pr t ks = Ok (ROk s) ->
  node_count s <= 31 + 32305 * N.of_nat (length ks).
Proof.
  intros keccak pr pr' t ks s K R F E. destruct (reach_valid pr' t R) as [W _].
  pose proof (C60_size keccak pr t ks s 64 K W F (fun x I => proj1 (C50_depth pr' t x R I)) E). lia.
Qed.

(** A subset never has more nodes than the trie. *)
Theorem C60_no_larger : forall keccak pr t ks s,
  hash32 keccak -> wf 64 t -> fits t -> create_trie_subset keccak pr t ks = Ok (ROk s) -> node_count s <= node_count t.
Proof. intros keccak pr t ks s K W F E. exact (hides_size keccak t s (subset_hides keccak pr t ks s K W F E)). Qed.

(** In a batch a result also keeps what earlier results kept (C26), so the keys of the earlier lists count as well. *)
Theorem C60_batch : forall keccak pr t kss l d,
  hash32 keccak -> wf 64 t -> fits t -> (forall x, In x (subnodes 0 t) -> fst x <= d) ->
  create_trie_subsets keccak pr t kss = Ok (ROk l) ->
  length l = length kss /\
  forall j s, nth_error l j = Some s -> node_count s <= 31 + 497 * (d + 1) * N.of_nat (length (concat (firstn (S j) kss))).
Proof.
  intros keccak pr t kss l d K W F D E. unfold create_trie_subsets in E.
  destruct (subsets_size keccak K pr t d kss W F D (track t) l 0 (track_tracks t) ltac:(rewrite track_marks; lia) E) as [L B]. split; [exact L|].
  intros j s H. specialize (B j s H). rewrite N.add_0_l in B. exact B.
Qed.

(** For [HashedPartialTrie]: all nodes of a subset are new, none is the same object as a node of the trie or of another subset, and no
    other node is allocated. So this is also how much memory a subset needs. *)
Theorem C60_new_nodes : forall keccak pr t ks s n u s' n',
  exec (hcreate_trie_subset keccak pr t ks) s n = Ok (ROk u, s', n') ->
  n' = n + node_count (erase u) /\ NoDup (map cell (parts u)) /\ forall x, In x (parts u) -> n <= cell x < n'.
Proof.
  intros keccak pr t ks s n u s' n' E. destruct (subset_fresh keccak pr t ks s n u s' n' E) as (A & B & C).
  cbn [flat_map] in A, B, C. rewrite app_nil_r in A, B, C. split; [|split; assumption]. rewrite A, parts_size. reflexivity.
Qed.
Theorem C60_new_nodes_batch : forall keccak pr t kss s n us s' n',
  exec (hcreate_trie_subsets keccak pr t kss) s n = Ok (ROk us, s', n') ->
  n' = n + N.of_nat (length (flat_map parts us)) /\ NoDup (map cell (flat_map parts us)) /\ forall x, In x (flat_map parts us) -> n <= cell x < n'.
Proof. intros keccak pr t kss s n us s' n' E. exact (subsets_fresh keccak pr t kss _ s n us s' n' E). Qed.

(** The subset of [ex_big] for 0x1234, which hides the branch above 0x5678 and 0x5699, and the same as a [HashedPartialTrie]. *)
Definition ex_one : node := oks (create_trie_subset keccak256 Debug ex_big [K 4 0x1234]).
Definition ex_hbig : hnode * store * N := match exec (hfrom_iter Debug big_list) (fun _ => None) 0 with Ok x => x | Panic => (HEmpty 0, fun _ => None, 0) end.
Example C60_example : reach Debug ex_big /\ fits ex_big /\ create_trie_subset keccak256 Debug ex_big [K 4 0x1234] = Ok (ROk ex_one) /\
  node_count ex_one = 17 /\ node_count ex_big = 34 /\
  (let '(t, s, n) := ex_hbig in match exec (hcreate_trie_subset keccak256 Debug t [K 4 0x1234]) s n with Ok (ROk u, _, n') => erase u = ex_one /\ n' = n + 17 | _ => False end).
Proof.
  destruct ex_big_ok as (_ & Wb & Cb & Fb). split; [apply reach_start; assumption|]. split; [exact Fb|].
  split; [vm_compute; reflexivity|]. split; [vm_compute; reflexivity|]. split; [vm_compute; reflexivity|]. vm_compute. split; reflexivity.
Qed.

Print Assumptions C60_size.
Print Assumptions C60_keys.
Print Assumptions C60_no_larger.
Print Assumptions C60_batch.
Print Assumptions C60_new_nodes.
Print Assumptions C60_new_nodes_batch.
Print Assumptions C60_example.
