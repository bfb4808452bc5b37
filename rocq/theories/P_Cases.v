(** Further concrete cases that meet the hypotheses of theorems stated elsewhere, with what the theorems say of them. *)
From Verif Require Import Base Nibbles NibblesSpec Trie TrieSpec TrieFacts Rlp Hashing Keccak HashSpec HideSpec HashFacts KeccakFacts HideFacts Query QuerySpec Diff Subset SubsetSpec P_Nibbles P_Trie P_Hash P_Subset P_Short.
Open Scope N_scope.

(** C26, outcomes of a batch. In a pruned trie the second list leads into a hash node: the batch returns the error of that list, whatever follows it.
    In a debug build the second list of the other batch ends inside an extension node: the batch panics; a list before it succeeds by itself. *)
Example C26_outcomes_example :
  hash32 keccak256 /\ wf 64 ex_subset /\ fits ex_subset /\
  (exists e, create_trie_subsets keccak256 Debug ex_subset [[K 4 0x5678]; [K 4 0x1999; K 4 0x5699]; [K 4 0x5678]] = Ok (RErr e) /\
    create_trie_subset keccak256 Debug ex_subset [K 4 0x1999; K 4 0x5699] = Ok (RErr e)) /\
  (exists s, create_trie_subset keccak256 Debug ex_subset [K 4 0x5678] = Ok (ROk s)) /\
  wf 64 ex_short /\ fits ex_short /\
  create_trie_subsets keccak256 Debug ex_short [[K 4 0x0013]; [K 1 5]] = Panic /\
  (exists s, create_trie_subset keccak256 Debug ex_short [K 4 0x0013] = Ok (ROk s)) /\ create_trie_subset keccak256 Debug ex_short [K 1 5] = Panic.
Proof.
  destruct C22_example as (W & F & E & _). pose proof (subset_hides _ _ _ _ _ keccak256_32 W F E) as H. destruct C24_short_example as (_ & Ws & Fs & _ & _ & _ & _ & P).
  split; [exact keccak256_32|]. split; [exact (hides_wf _ _ _ _ H W)|]. split; [exact (hides_fits _ keccak256_32 _ _ H F)|].
  split; [eexists; split; vm_compute; reflexivity|]. split; [eexists; vm_compute; reflexivity|]. split; [exact Ws|]. split; [exact Fs|].
  split; [vm_compute; reflexivity|]. split; [eexists; vm_compute; reflexivity|exact P].
Qed.

(** C02: a key of five nibbles asked for its sixth, a full key of 64 nibbles, and a nibble that is none; each meets the hypotheses of one of the theorems. *)
Example C02_example :
  nwf k0123a /\ count k0123a < 6 /\ get_nibble Debug k0123a 6 = Panic /\ get_nibble Release k0123a 6 = Panic /\ split_at_idx Release k0123a 6 = Panic /\
  get_nibble_range Debug k0123a 2 6 = Panic /\ get_next_nibbles Release k0123a 6 <> Panic /\
  nwf (Nib 64 7) /\ 64 <= count (Nib 64 7) /\ push_nibble_back (Nib 64 7) 1 = Panic /\ merge_nibble k0123a 16 = Panic /\
  64 < count (Nib 64 7) + count k0123a /\ merge_nibbles Release (Nib 64 7) k0123a = Panic /\
  nwf nib_default /\ nseq nib_default = [] /\ pop_next_nibble_front Release nib_default = Panic /\
  count k0123a <> count (Nib 64 7) /\ find_diff_equal Release k0123a (Nib 64 7) = Panic.
Proof.
  repeat match goal with |- _ /\ _ => split end; try (vm_compute; reflexivity); try (vm_compute; discriminate); try (split; vm_compute; (reflexivity || discriminate)).
Qed.

(** C41: the depth reported is 0 although the difference is found below the extension node at the root. *)
Example C41_example :
  let a := okn (from_iter Debug [(K 4 0x1234, Val [1]); (K 4 0x1256, Val [2])]) in let b := okn (from_iter Debug [(K 4 0x1334, Val [1]); (K 4 0x1357, Val [2])]) in
  exists p, create_diff keccak256 Debug a b = Ok (Some p) /\ d_path p = [SExtension (K 2 0x12)] /\ d_depth p = 0.
Proof. eexists. split; [vm_compute; reflexivity|split; vm_compute; reflexivity]. Qed.

Print Assumptions C26_outcomes_example.
Print Assumptions C02_example.
Print Assumptions C41_example.
