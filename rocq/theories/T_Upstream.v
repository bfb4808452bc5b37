(** The unit tests, documentation examples and example programs of the repository with fixed inputs, run on the model in both build profiles. These are tests of the
    model, not proofs about it: each one is an assertion that the authors of the code run against the code itself. Tests with
    random inputs are left out; the properties are proved for all inputs elsewhere. *)
From Coq Require Import String Ascii.
From Verif Require Import Base Nibbles Trie TrieSpec Rlp Hashing Keccak Subset Cache Serde Query Diff DiffCache Stats Text CacheSpec.
Open Scope N_scope.

(** testing_utils.rs:27-37 [impl From<i32> for Nibbles]. *)
Definition nb (k : N) : nibbles := Nib (get_num_nibbles_in_key k) k.
Definition ok {A} (r : res A) (p : A -> bool) : bool := match r with Ok a => p a | Panic => false end.
Definition panics {A} (r : res A) : bool := match r with Ok _ => false | Panic => true end.
Definition both (f : profile -> bool) : bool := f Debug && f Release.
Definition all (l : list bool) : bool := forallb (fun b => b) l.
Definition is (a b : nibbles) : bool := nib_eqb a b.
Definition gives (r : res nibbles) (k : N) : bool := ok r (fun n => is n (nb k)).
Fixpoint bytes_eqb (a b : list N) : bool :=
  match a, b with
  | [], [] => true
  | x :: a', y :: b' => (x =? y) && bytes_eqb a' b'
  | _, _ => false
  end.
Fixpoint chars (s : string) : list N := match s with EmptyString => [] | String c s' => N_of_ascii c :: chars s' end.

(** ** nibbles.rs:776-1234 *)
Example get_nibble_works : both (fun pr => all [ok (get_nibble pr (nb 0x1234) 0) (N.eqb 0x1); ok (get_nibble pr (nb 0x1234) 3) (N.eqb 0x4)]) = true.
Proof. vm_compute. reflexivity. Qed.

Definition pops (r : res (N * nibbles)) (left nib : N) : bool := ok r (fun '(x, n) => (x =? nib) && is n (nb left)).
Example pop_nibble_front_works : both (fun pr => all [
  pops (pop_next_nibble_front pr (nb 0x1)) 0x0 1; pops (pop_next_nibble_front pr (nb 0x1234)) 0x234 1]) = true.
Proof. vm_compute. reflexivity. Qed.
Example pop_nibble_back_works : both (fun pr => all [
  pops (pop_next_nibble_back pr (nb 0x1)) 0x0 1; pops (pop_next_nibble_back pr (nb 0x1234)) 0x123 4]) = true.
Proof. vm_compute. reflexivity. Qed.

Definition pops_many (r : res (nibbles * nibbles)) (left out : N) : bool := ok r (fun '(x, n) => is n (nb left) && is x (nb out)).
Example pop_nibbles_front_works : both (fun pr => all [
  pops_many (pop_nibbles_front pr (nb 0x1234) 0) 0x1234 0x0; pops_many (pop_nibbles_front pr (nb 0x1234) 1) 0x234 0x1;
  pops_many (pop_nibbles_front pr (nb 0x1234) 3) 0x4 0x123; pops_many (pop_nibbles_front pr (nb 0x1234) 4) 0x0 0x1234]) = true.
Proof. vm_compute. reflexivity. Qed.
Example pop_nibbles_back_works : both (fun pr => all [
  pops_many (pop_nibbles_back pr (nb 0x1234) 0) 0x1234 0x0; pops_many (pop_nibbles_back pr (nb 0x1234) 1) 0x123 0x4;
  pops_many (pop_nibbles_back pr (nb 0x1234) 3) 0x1 0x432; pops_many (pop_nibbles_back pr (nb 0x1234) 4) 0x0 0x4321]) = true.
Proof. vm_compute. reflexivity. Qed.

Example get_next_nibbles_works : both (fun pr => all [
  gives (get_next_nibbles pr (nb 0x1234) 0) 0; gives (get_next_nibbles pr (nb 0x1234) 1) 0x1; gives (get_next_nibbles pr (nb 0x1234) 2) 0x12;
  gives (get_next_nibbles pr (nb 0x1234) 3) 0x123; gives (get_next_nibbles pr (nb 0x1234) 4) 0x1234; gives (get_next_nibbles pr (nb 0x0) 0) 0]) = true.
Proof. vm_compute. reflexivity. Qed.
Example get_nibble_range_works : both (fun pr => all [
  gives (get_nibble_range pr (nb 0x1234) 0 0) 0; gives (get_nibble_range pr (nb 0x1234) 0 1) 0x1;
  gives (get_nibble_range pr (nb 0x1234) 0 2) 0x12; gives (get_nibble_range pr (nb 0x1234) 0 4) 0x1234]) = true.
Proof. vm_compute. reflexivity. Qed.
Example truncate_nibbles_works : both (fun pr => all [
  gives (truncate_n_nibbles_front pr (nb 0x1234) 0) 0x1234; gives (truncate_n_nibbles_front pr (nb 0x1234) 1) 0x234;
  gives (truncate_n_nibbles_front pr (nb 0x1234) 2) 0x34; gives (truncate_n_nibbles_front pr (nb 0x1234) 3) 0x4;
  gives (truncate_n_nibbles_front pr (nb 0x1234) 4) 0x0; gives (truncate_n_nibbles_front pr (nb 0x1234) 8) 0x0;
  gives (truncate_n_nibbles_back pr (nb 0x1234) 0) 0x1234; gives (truncate_n_nibbles_back pr (nb 0x1234) 1) 0x123;
  gives (truncate_n_nibbles_back pr (nb 0x1234) 2) 0x12; gives (truncate_n_nibbles_back pr (nb 0x1234) 3) 0x1;
  gives (truncate_n_nibbles_back pr (nb 0x1234) 4) 0x0; gives (truncate_n_nibbles_back pr (nb 0x1234) 8) 0x0]) = true.
Proof. vm_compute. reflexivity. Qed.

Definition splits (r : res (nibbles * nibbles)) (a b : N) : bool := ok r (fun '(x, y) => is x (nb a) && is y (nb b)).
Example split_at_idx_works : both (fun pr => all [
  splits (split_at_idx pr (nb 0x1234) 0) 0x0 0x1234; splits (split_at_idx pr (nb 0x1234) 1) 0x1 0x234;
  splits (split_at_idx pr (nb 0x1234) 2) 0x12 0x34; splits (split_at_idx pr (nb 0x1234) 3) 0x123 0x4]) = true.
Proof. vm_compute. reflexivity. Qed.
Example split_at_idx_panics_if_out_of_range : both (fun pr => panics (split_at_idx pr (nb 0x1234) 5)) = true.
Proof. vm_compute. reflexivity. Qed.
Example split_at_idx_prefix_works : both (fun pr => all [
  gives (split_at_idx_prefix pr (nb 0x1234) 0) 0x0; gives (split_at_idx_prefix pr (nb 0x1234) 1) 0x1; gives (split_at_idx_prefix pr (nb 0x1234) 3) 0x123]) = true.
Proof. vm_compute. reflexivity. Qed.
Example split_at_idx_postfix_works : both (fun pr => all [
  gives (split_at_idx_postfix pr (nb 0x1234) 0) 0x1234; gives (split_at_idx_postfix pr (nb 0x1234) 1) 0x234; gives (split_at_idx_postfix pr (nb 0x1234) 3) 0x4]) = true.
Proof. vm_compute. reflexivity. Qed.

Example merge_nibble_works : all [gives (merge_nibble (nb 0x0) 1) 0x1; gives (merge_nibble (nb 0x1234) 5) 0x12345] = true.
Proof. vm_compute. reflexivity. Qed.
Example merge_nibbles_works : both (fun pr => all [
  gives (merge_nibbles pr (nb 0x12) (nb 0x34)) 0x1234; gives (merge_nibbles pr (nb 0x12) (nb 0x0)) 0x12;
  gives (merge_nibbles pr (nb 0x0) (nb 0x34)) 0x34; gives (merge_nibbles pr (nb 0x0) (nb 0x0)) 0x0]) = true.
Proof. vm_compute. reflexivity. Qed.
Example reverse_works : all [is (reverse (nb 0x0)) (nb 0x0); is (reverse (nb 0x1)) (nb 0x1); is (reverse (nb 0x12)) (nb 0x21); is (reverse (nb 0x1234)) (nb 0x4321)] = true.
Proof. vm_compute. reflexivity. Qed.

Example find_nibble_idx_that_differs_between_nibbles_works : both (fun pr => all [
  ok (find_diff_equal pr (nb 0x1234) (nb 0x2567)) (N.eqb 0); ok (find_diff_equal pr (nb 0x1234) (nb 0x1256)) (N.eqb 2);
  ok (find_diff_equal pr (nb 0x1234) (nb 0x1235)) (N.eqb 3); ok (find_diff_equal pr (nb 0x1234) (nb 0x1234)) (N.eqb 4);
  ok (find_diff pr (nb 0x1234) (nb 0x12345)) (N.eqb 4)]) = true.
Proof. vm_compute. reflexivity. Qed.
Example nibbles_are_identical_up_to_smallest_count_works : both (fun pr => all [
  ok (identical_up_to_smallest pr (nb 0x1234) (nb 0x1234)) (fun b => b); ok (identical_up_to_smallest pr (nb 0x1234) (nb 0x1)) (fun b => b);
  ok (identical_up_to_smallest pr (nb 0x1234) (nb 0x12)) (fun b => b); ok (identical_up_to_smallest pr (nb 0x1234) (nb 0x12345678)) (fun b => b);
  ok (identical_up_to_smallest pr (nb 0x1234) (nb 0x23)) negb; ok (identical_up_to_smallest pr (nb 0x1234) (nb 0x4)) negb;
  ok (identical_up_to_smallest pr (nb 0x1234) (nb 0x5)) negb; ok (identical_up_to_smallest pr (nb 0x1234) (nb 0x13)) negb]) = true.
Proof. vm_compute. reflexivity. Qed.

Example nibbles_to_hex_prefix_encoding_works : both (fun pr => all [
  ok (to_hex_prefix_encoding pr (nb 0x1234) false) (fun b => from_be b =? 0x1234); ok (to_hex_prefix_encoding pr (nb 0x1234) true) (fun b => from_be b =? 0x201234);
  ok (to_hex_prefix_encoding pr (nb 0x12345) false) (fun b => from_be b =? 0x112345); ok (to_hex_prefix_encoding pr (nb 0x12345) true) (fun b => from_be b =? 0x312345)]) = true.
Proof. vm_compute. reflexivity. Qed.

(** [from_hex_prefix_encoding_str]. *)
Definition hp_str (pr : profile) (s : string) : res (result nibbles hp_err) :=
  match nib_from_str (chars s) with
  | ROk n => b <- bytes_be pr n ;; from_hex_prefix_encoding b
  | RErr _ => Panic
  end.
Definition hp_gives (r : res (result nibbles hp_err)) (n : nibbles) : bool := ok r (fun x => match x with ROk m => is m n | RErr _ => false end).
Example nibbles_from_hex_prefix_encoding_works : both (fun pr => all [
  hp_gives (hp_str pr "0x001234") (nb 0x1234); hp_gives (hp_str pr "0x201234") (nb 0x123410);
  hp_gives (hp_str pr "0x112345") (nb 0x12345); hp_gives (hp_str pr "0x312345") (nb 0x1234510);
  hp_gives (hp_str pr "0x2000080000000000000000000000000000000000000000000000000000000000")
    (match nib_from_str (chars "0x0008000000000000000000000000000000000000000000000000000000000010") with ROk n => n | RErr _ => nib_default end)]) = true.
Proof. vm_compute. reflexivity. Qed.
Example nibbles_from_hex_prefix_encoding_errors_if_flags_invalid : both (fun pr => all [
  ok (hp_str pr "0x401234") (fun x => match x with RErr (InvalidFlags _) => true | _ => false end);
  ok (hp_str pr "0xF12345") (fun x => match x with RErr (InvalidFlags _) => true | _ => false end)]) = true.
Proof. vm_compute. reflexivity. Qed.
Example nibbles_from_hex_prefix_encoding_errors_if_too_large :
  ok (from_hex_prefix_encoding (16 :: repeat 0 33)) (fun x => match x with RErr (TooLong _ _) => true | _ => false end) = true.
Proof. vm_compute. reflexivity. Qed.
Example from_hex_prefix_encoding_edge_case :
  ok (from_hex_prefix_encoding (be_bytes 32 0x3ab76c381c0f8ea617ea96780ffd1e165c754b28a41a95922f9f70682c581353)) (fun x => match x with ROk _ => true | _ => false end) = true.
Proof. vm_compute. reflexivity. Qed.

Example nibbles_to_bytes_works : both (fun pr => all (map (fun v => ok (bytes_be pr (to_nibbles 64 v)) (fun b => from_be b =? v))
  [0x0; 0x4; 0x1234; 0x12345; 0x123456789001aaa; 0x123456789001aaaa])) = true.
Proof. vm_compute. reflexivity. Qed.

Definition prints (r : res (list N)) (s : string) : bool := ok r (fun t => bytes_eqb t (chars s)).
Example nibbles_from_h256_works : both (fun pr => all [
  prints (as_hex_str pr false (from_h256_be (be_bytes 32 0))) "0x0000000000000000000000000000000000000000000000000000000000000000";
  prints (as_hex_str pr false (from_h256_be (be_bytes 32 2048))) "0x0000000000000000000000000000000000000000000000000000000000000800";
  prints (as_hex_str pr false (from_h256_le (be_bytes 32 0))) "0x0000000000000000000000000000000000000000000000000000000000000000";
  prints (as_hex_str pr false (from_h256_le (be_bytes 32 2048))) "0x0008000000000000000000000000000000000000000000000000000000000000"]) = true.
Proof. vm_compute. reflexivity. Qed.
Definition reprints (pr : profile) (a b : string) : bool := match nib_from_str (chars a) with ROk n => prints (as_hex_str pr false n) b | RErr _ => false end.
Example nibbles_from_str_works : both (fun pr => all [reprints pr "0x0" "0x0"; reprints pr "0" "0x0"; reprints pr "0x800" "0x800"; reprints pr "800" "0x800"]) = true.
Proof. vm_compute. reflexivity. Qed.
Example nibbles_from_nibble_works : all (map (fun x => ok (from_nibble x) (fun n => packed n =? x)) [0x0; 0x1; 0xf]) = true.
Proof. vm_compute. reflexivity. Qed.
Example nibbles_from_nibble_panics_when_not_nibble : panics (from_nibble 0x10) = true.
Proof. vm_compute. reflexivity. Qed.
Example to_nibbles_works : both (fun pr => all [
  prints (as_hex_str pr false (to_nibbles 64 0x0)) "0x"; prints (as_hex_str pr false (to_nibbles_byte_padded 64 0x0)) "0x";
  prints (as_hex_str pr false (to_nibbles 64 0x1)) "0x1"; prints (as_hex_str pr false (to_nibbles_byte_padded 64 0x1)) "0x01";
  prints (as_hex_str pr false (to_nibbles 64 0x1234)) "0x1234"; prints (as_hex_str pr false (to_nibbles_byte_padded 64 0x1234)) "0x1234"]) = true.
Proof. vm_compute. reflexivity. Qed.

(** ** trie_ops.rs:830-1053 *)
Definition entry (k : N) : nibbles * val_or_hash := (nb k, Val [2]).
Definition entry_with_value (k v : N) : nibbles * val_or_hash := (nb k, Val [v]).
(** testing_utils.rs:65-70 [large_entry]. *)
Definition large_entry (k : N) : nibbles * val_or_hash := (nb k, Val (2 :: repeat 255 32)).
Definition item_eqb (a b : nibbles * val_or_hash) : bool :=
  nib_eqb (fst a) (fst b) && match snd a, snd b with Val x, Val y => bytes_eqb x y | HashV x, HashV y => bytes_eqb x y | _, _ => false end.
(** [insert_entries_and_assert_all_exist_in_trie_with_no_extra]. *)
Definition all_exist (l : list (nibbles * val_or_hash)) (pr : profile) : bool :=
  ok (from_iter pr l) (fun t =>
    match trie_items 3000 pr t with
    | Some (Ok items) => forallb (fun e => existsb (item_eqb e) items) l && forallb (fun e => existsb (item_eqb e) l) items
    | _ => false
    end).
Example single_insert : both (all_exist [entry 0x1234]) = true.
Proof. vm_compute. reflexivity. Qed.
Example two_disjoint_inserts_works : both (all_exist [entry 0x1234; entry 0x5678]) = true.
Proof. vm_compute. reflexivity. Qed.
Example two_inserts_that_share_one_nibble_works : both (all_exist [entry 0x1234; entry 0x1567]) = true.
Proof. vm_compute. reflexivity. Qed.
Example two_inserts_that_differ_on_last_nibble_works : both (all_exist [entry 0x1234; entry 0x1235]) = true.
Proof. vm_compute. reflexivity. Qed.
Example diagonal_inserts_to_base_of_trie_works :
  both (all_exist (map (fun i => entry (match create_mask_of_1s (N.of_nat i * 4) with Ok m => m | Panic => 0 end)) (seq 0 65))) = true.
Proof. vm_compute. reflexivity. Qed.
Definition gets (pr : profile) (t : node) (k : N) (v : list N) : bool := ok (trie_get pr t (nb k)) (fun r => match r with Some w => bytes_eqb w v | None => false end).
Example updating_an_existing_node_works :
  both (fun pr => ok (from_iter pr [entry 0x1234; (nb 0x1234, Val [100])]) (fun t => gets pr t 0x1234 [100])) = true.
Proof. vm_compute. reflexivity. Qed.
Example two_variable_length_keys_with_overlap_are_queryable :
  both (fun pr => ok (from_iter pr [entry_with_value 0x1234 1; entry_with_value 0x12345678 2]) (fun t => gets pr t 0x1234 [1] && gets pr t 0x12345678 [2])) = true.
Proof. vm_compute. reflexivity. Qed.
Definition deletes_none (pr : profile) (t : node) (k : N) : bool := ok (trie_delete pr t (nb k)) (fun '(_, w) => match w with None => true | Some _ => false end).
Example deleting_a_non_existent_node_returns_none :
  both (fun pr => ok (trie_insert pr Empty (nb 0x1234) (Val [91])) (fun t => deletes_none pr t 0x5678)) = true.
Proof. vm_compute. reflexivity. Qed.
Example deleting_from_an_empty_trie_returns_none : both (fun pr => deletes_none pr Empty 0x1234) = true.
Proof. vm_compute. reflexivity. Qed.

(** ** trie_hashing.rs:251-448 *)
Definition root (pr : profile) (t : node) (h : N) : bool := ok (hash_trie keccak256 pr t) (fun b => from_be b =? h).
Definition same_root (pr : profile) (a b : node) : bool := ok (hash_trie keccak256 pr a) (fun x => ok (hash_trie keccak256 pr b) (bytes_eqb x)).
(** [keccak_hash::KECCAK_NULL_RLP]. *)
Example empty_hash_is_correct : both (fun pr => root pr Empty 0x56e81f171bcc55a6ff8345e692c0f86e5b48e01b996cadc001622fb5e363b421) = true.
Proof. vm_compute. reflexivity. Qed.
Definition replaced (pr : profile) (t : node) (is : list nat) : res node :=
  match t with
  | Branch ch v =>
      ch' <- fold_left (fun r i => ch <- r ;; h <- hash_trie keccak256 pr (nth i ch Empty) ;; Ok (set_child ch i (Hash h))) is (Ok ch) ;;
      Ok (Branch ch' v)
  | _ => Panic
  end.
Example replacing_branch_of_leaves_with_hash_nodes_produced_same_hash :
  both (fun pr => ok (from_iter pr (map large_entry [0x1; 0x2; 0x3; 0x4])) (fun t => ok (replaced pr t [1%nat; 4%nat]) (same_root pr t))) = true.
Proof. vm_compute. reflexivity. Qed.

(** ** trie_subsets.rs:429-643 *)
Definition subset_ok (r : res (result node subset_error)) (p : node -> bool) : bool := ok r (fun x => match x with ROk s => p s | RErr _ => false end).
Definition large_trie (pr : profile) (ks : list N) : res node := from_iter pr (map large_entry ks).
Definition handmade_trie_1 (pr : profile) : res node := large_trie pr [0x1234; 0x1324; 0x132400005; 0x2001; 0x2002].
Example empty_trie_does_not_return_err_on_query : both (fun pr => subset_ok (create_trie_subset keccak256 pr Empty [nb 0x1234]) (fun _ => true)) = true.
Proof. vm_compute. reflexivity. Qed.
Example non_existent_key_does_not_return_err :
  both (fun pr => ok (trie_insert pr Empty (nb 0x1234) (Val [0; 1; 2])) (fun t => subset_ok (create_trie_subset keccak256 pr t [nb 0x5678]) (fun _ => true))) = true.
Proof. vm_compute. reflexivity. Qed.
Example encountering_a_hash_node_returns_err :
  both (fun pr => ok (create_trie_subset keccak256 pr (Hash (repeat 0 32)) [nb 0x1234]) (fun r => match r with RErr _ => true | ROk _ => false end)) = true.
Proof. vm_compute. reflexivity. Qed.
Example single_node_trie_is_queryable :
  both (fun pr => ok (trie_insert pr Empty (nb 0x1234) (Val [0; 1; 2])) (fun t => subset_ok (create_trie_subset keccak256 pr t [nb 0x1234]) (node_eqb t))) = true.
Proof. vm_compute. reflexivity. Qed.
(** [get_all_nibbles_of_leaf_nodes_in_trie]. *)
Definition leaf_keys (pr : profile) (t : node) : list nibbles :=
  match trie_items 3000 pr t with
  | Some (Ok items) => flat_map (fun e => match snd e with Val _ => [fst e] | HashV _ => [] end) items
  | _ => []
  end.
Definition has_key (l : list nibbles) (k : N) : bool := existsb (is (nb k)) l.
Example multi_node_trie_returns_proper_subset :
  both (fun pr => ok (large_trie pr [0x1234; 0x56; 0x12345]) (fun t => subset_ok (create_trie_subset keccak256 pr t [nb 0x1234; nb 0x56]) (fun s =>
    has_key (leaf_keys pr s) 0x1234 && has_key (leaf_keys pr s) 0x56 && negb (has_key (leaf_keys pr s) 0x12345)))) = true.
Proof. vm_compute. reflexivity. Qed.

(** [get_all_non_empty_and_non_hash_nodes_in_trie_intern]. *)
Fixpoint all_nodes (pr : profile) (t : node) (key : nibbles) {struct t} : list (node_type * nibbles) :=
  match t with
  | Empty | Hash _ => []
  | Branch ch _ =>
      (fix go (i : N) (l : list node) {struct l} : list (node_type * nibbles) :=
         match l with
         | [] => []
         | c :: l => match merge_nibble key i with Ok k => all_nodes pr c k | Panic => [] end ++ go (i + 1) l
         end) 0 ch ++ [(type_of t, reverse key)]
  | Extension n c => match merge_nibbles pr key n with Ok k => all_nodes pr c k | Panic => [] end ++ [(type_of t, reverse key)]
  | Leaf n _ => [(type_of t, reverse (match merge_nibbles pr key n with Ok k => k | Panic => key end))]
  end.
Definition nodes_are (pr : profile) (r : res (result node subset_error)) (l : list (node_type * N)) : bool :=
  subset_ok r (fun s =>
    let ns := all_nodes pr s nib_default in
    forallb (fun e => existsb (fun f => type_eqb (fst e) (fst f) && is (reverse (nb (snd e))) (snd f)) ns) l && (N.of_nat (length ns) =? N.of_nat (length l))).
Example intermediate_nodes_are_included_in_subset :
  both (fun pr => ok (handmade_trie_1 pr) (fun t =>
    let ks := map nb [0x1234; 0x1324; 0x132400005; 0x2001; 0x2002] in
    subset_ok (create_trie_subset keccak256 pr t ks) (fun s =>
      forallb (fun k => existsb (is k) ks) (leaf_keys pr s) && forallb (fun k => existsb (is k) (leaf_keys pr s)) ks) &&
    nodes_are pr (create_trie_subset keccak256 pr t ks)
      [(Query.TBranch, 0x0); (Query.TBranch, 0x1); (Query.TLeaf, 0x1234); (Query.TExtension, 0x13); (Query.TBranch, 0x1324); (Query.TLeaf, 0x132400005);
       (Query.TExtension, 0x2); (Query.TBranch, 0x200); (Query.TLeaf, 0x2001); (Query.TLeaf, 0x2002)] &&
    nodes_are pr (create_trie_subset keccak256 pr t [nb 0x2001]) [(Query.TBranch, 0x0); (Query.TExtension, 0x2); (Query.TBranch, 0x200); (Query.TLeaf, 0x2001)] &&
    nodes_are pr (create_trie_subset keccak256 pr t [nb 0x1324]) [(Query.TBranch, 0x0); (Query.TBranch, 0x1); (Query.TExtension, 0x13); (Query.TBranch, 0x1324)])) = true.
Proof. vm_compute. reflexivity. Qed.
Example hash_of_single_leaf_trie_partial_trie_matches_original_trie :
  both (fun pr => ok (trie_insert pr Empty (nb 0x1234) (Val [0])) (fun t => subset_ok (create_trie_subset keccak256 pr t [nb 0x1234]) (same_root pr t))) = true.
Proof. vm_compute. reflexivity. Qed.
Example hash_of_branch_partial_tries_matches_original_trie :
  both (fun pr => ok (large_trie pr [0x1234; 0x56; 0x12345]) (fun t => all (map (fun ks => subset_ok (create_trie_subset keccak256 pr t (map nb ks)) (same_root pr t))
    [[0x1234]; [0x56]; [0x2]; [0x1234; 0x12345]; [0x1234; 0x56; 0x12345]]))) = true.
Proof. vm_compute. reflexivity. Qed.

(** ** debug_tools/stats.rs:318-332 *)
Example hand_made_trie_has_correct_node_stats :
  both (fun pr => ok (t <- handmade_trie_1 pr ;; get_trie_stats pr t) (fun s =>
    let c := s_counts s in (n_leaf c =? 4) && (n_hash c =? 0) && (n_branch c =? 4) && (n_extension c =? 2) && (n_empty c =? 57))) = true.
Proof. vm_compute. reflexivity. Qed.

(** ** debug_tools/diff.rs:413-449 *)
Definition info_is (i : node_info) (k : N) (v : list N) (t : node) (pr : profile) : bool :=
  is (i_key i) (nb k) && match i_value i with Some w => bytes_eqb w v | None => false end && type_eqb (i_type i) Query.TLeaf &&
  ok (hash_trie keccak256 pr t) (bytes_eqb (i_hash i)).
Example depth_single_node_hash_diffs_work :
  both (fun pr =>
    ok (trie_insert pr Empty (nb 0x1234) (Val [0])) (fun a => ok (trie_insert pr a (nb 0x1234) (Val [1])) (fun b =>
    ok (create_diff keccak256 pr a b) (fun d =>
      match d with
      | Some p => (d_depth p =? 0) && match d_path p with [] => true | _ => false end && is (d_key p) nib_default &&
                  info_is (a_info p) 0x1234 [0] a pr && info_is (b_info p) 0x1234 [1] b pr
      | None => false
      end)))) = true.
Proof. vm_compute. reflexivity. Qed.

(** ** The examples in the documentation of [Nibbles] (nibbles.rs:116-150) *)
Definition str (s : string) : nibbles := match nib_from_str (chars s) with ROk n => n | RErr _ => nib_default end.
Example doc_examples : both (fun pr => all [
  negb (is (str "0x123") (str "0x0123")); prints (as_hex_str pr false (to_nibbles_byte_padded 64 0x123)) "0x0123";
  is (to_nibbles 64 0x123) (to_nibbles 64 0x00000000123); is_empty (to_nibbles 64 0x00000000)]) = true.
Proof. vm_compute. reflexivity. Qed.

(** ** examples/simple.rs *)
Definition u32 (k : N) : nibbles := to_nibbles 32 k.
Definition bytes_nib (r : result nibbles bytes_err) : nibbles := match r with ROk n => n | RErr _ => nib_default end.
Example simple_example : both (fun pr =>
  ok (from_iter pr [(u32 0x1234, Val (chars "some data")); (u32 9001, Val [1; 2; 3])]) (fun t => all [
    gets pr t 0x1234 (chars "some data");
    ok (trie_get pr t (u32 0x5678)) (fun r => match r with None => true | _ => false end);
    match trie_items 100 pr t with
    | Some (Ok [a; b]) => item_eqb a (u32 0x1234, Val (chars "some data")) && item_eqb b (u32 9001, Val [1; 2; 3])
    | _ => false
    end;
    ok (trie_delete pr t (u32 0x1234)) (fun '(t', v) =>
      match v with Some w => bytes_eqb w (chars "some data") | None => false end &&
      ok (trie_get pr t' (u32 0x1234)) (fun r => match r with None => true | _ => false end))]) &&
  ok (from_iter pr [(to_nibbles_byte_padded 32 0x19002, Val [4; 5; 6])]) (fun a =>
    ok (from_iter pr [(to_nibbles 32 0x19002, Val [4; 5; 6])]) (fun b => negb (same_root pr a b))) &&
  prints (as_hex_str pr false (bytes_nib (from_bytes_be [1; 35; 69]))) "0x012345" &&
  prints (as_hex_str pr false (bytes_nib (from_bytes_le [69; 35; 1]))) "0x012345") = true.
Proof. vm_compute. reflexivity. Qed.

(** ** examples/hash_nodes.rs *)
Definition large_val (x : N) : val_or_hash := Val (x :: repeat 255 32).
Example hash_nodes_example : both (fun pr =>
  ok (from_iter pr [(str "0x00", large_val 1); (str "0x01", large_val 2); (to_nibbles 64 0x10, large_val 3); (to_nibbles 64 0x11, large_val 4)]) (fun full =>
    match full with
    | Branch (c :: _) _ =>
        ok (h <- hash_trie keccak256 pr c ;; from_iter pr [(str "0x0", HashV h); (to_nibbles 64 0x10, large_val 3); (to_nibbles 64 0x11, large_val 4)])
          (same_root pr full)
    | _ => false
    end)) = true.
Proof. vm_compute. reflexivity. Qed.

(** ** test_data/pyevm_account_ground_truth.json (trie_hashing.rs:259-280 [single_account_leaf_hash_is_correct], 329-356
    [massive_account_insert_hashes_agree_with_eth_trie_and_py_evm]): the first 16 accounts (address, nonce, balance, storage
    root, code hash) and the state root that py-evm computed after each of them. *)
Definition accounts : list (N * (N * (N * (N * (N * N))))) :=
  [(0x7baa9455e3e70682c2094cac629f6fbed82c07cd, (8963783824838420066, (0x85776e9add84f39e71545a137a1d50068d723104f77383c13458a748e9bb17bc, (0x5a0845adaffd4fab96b1f8b2cf3013aa31d2dad4bb8dec71751384b3fd18428e, (0x821a2699c57ebebb8d416a70f85818072a6d01be61aee6c8c56dfa5b16b67dd8, 0x0be948e98266cb91b8cfc3a1eae6537bf7660902b8b14a993c21b01afdbd7822)))));
   (0xacdeb3e60870e15c2fcd81b5d24bace4307bf326, (12113227759547217336, (0x9466e4726b5f5241f323ca74d344749096fd35d0adf20806e521460637176e84, (0xc31b7aa0889626af69c477060dcbafb39cf1cf336f78dc67d903bdb99473be56, (0x6de2c002eb9cc6bfb71e493baee260790af1a0558de8e2ada0521ea34e2009dd, 0x1aacaf400b398fbbab2419bca6e726e25bb9bc30c7946d09293fa9ef006a05a7)))));
   (0xffdd35f80fa34266ccfdba9bba26d85135e8579a, (11448048936325307157, (0x59acdd984d125e7fa59cec98126cbc8f3888447911ebcd49428a1c22d5fdb76a, (0x202257baf7750843dedb0c2a768f3f529544c07e25750717243d0d763ff1682b, (0xaa2fa9d11247df9c610896a802475a927b8c6824818b4bbd5415451949830922, 0xbe885c8d3124cbfc87ac6a671b719ff4b9becf5aa663c338d6debb600e2f22f5)))));
   (0x8b2e1b82e89dc8158f928dc519724ce31bd09448, (2293387841754467614, (0xbff773ce32b2c49215ace7a1ceca2ee310da8a9516408169a38d8afcfdd2ed7a, (0xbddf0628442eb7c7445b4c827d21ee4d20d98024a349942f0003616ff6247ade, (0x1dbcb61e6ce81d4e65eb491d61f52493c73196b3629f505497e3d6bbc61e680f, 0xf473dc83783ad74adb36fc6f779953526587b975d3b467fb78ac9e42c1ca4185)))));
   (0xefec4623ab899605a2939b3b7fa74d8aff88ec82, (4035651438253870639, (0x52631db9d17034ce51797350e6256403bf3df0bbf66ac168b4a1ca795718ada2, (0xc408fba176d73c0dc983cc5eefca12182a8892df6362a5b8972d09db9e50563d, (0x4f08786e104a235f6d40a0277b2af73640158231e8bb4e51cf5757cb85bc2ad1, 0x8a9439baa16a197fc03922db29e43ddb40467387935bd839c07345cdc2632ed3)))));
   (0xb1df3da79d44c93e7799a8e2b368c5539c30ceaa, (11474565558841612466, (0x81d1bf066b8c66f28611f583b2d10e3d809e2109c7867a38a09f1aede38690e7, (0x56e81f171bcc55a6ff8345e692c0f86e5b48e01b996cadc001622fb5e363b421, (0x2d8b771275a5f156def6426d538075f74152e63b5bf65c9c5ae85afc3a6d4741, 0x7e6e720a76dda6bedd2794540590cccba1c63bace2ecb492eba91cc8059ef0e4)))));
   (0xd618fc1e6a4805421965e435101bb5fa6a677623, (14597698991389672113, (0xf655860bdd32e231eb5616997f22cd1207b6e08e6ac1ca75afb918c86e5bac20, (0x03401908d49d77f135b09dccbd70b6507222cb197153d8013820e14861c7b6e7, (0x7e2500d2a93e13413dbff66f70cfa7b86f6f2ad95be6f852f5c59c874a82245e, 0xbac80d7678e7533fe64f3aa148937e69224d44f0a59e13e79b3a80ad82988aaf)))));
   (0x5bdd5f994ae9ee11f5fe0213792ecd7555c36c3d, (11730574350915391417, (0x4ec985ff94b28b9d88819f421a42b62914afe646fe3216bd97d01e702f1d9bef, (0x3fb9f5d7e76ccbf2532caa478be8d52cf10338ce6905c8fe81686d86dfa8d2dd, (0xde4b193d0c4745842a8dbbb67c0adb75b41b47ecdc5e7b699080214079b584df, 0x79441c9aadcd8bba4654baf1c653260f8419bf60ab376be1c55e6f3cd0bba8ef)))));
   (0xdbe88a3f2f7a304ff344c911174f7a54788c161e, (5109199280817452504, (0xeda2fc4c7237d420b3dd77e1cbb02fe927649a62b02de52c9b050db28ee4fd02, (0x3fb745cfa8ff580721bcfb493ff2de09406c0578c27d5eb73f73bd344b634cdd, (0x9d8b8d542ebf1219893808ef14a1ed5da43bec658423da1ae7787ad7159cb79e, 0xe0e8809b29c0dfabbf259f311dc391cd0d42a10e55c343e245a22fb670b04ecc)))));
   (0xb08c3a0085e7425092f078b8226962278513d91e, (9802153567049796917, (0x2835bcdb2347b24fa0f9c0749177b6d45f2e9167713eceb14ad12b4c47534952, (0x0afc2376b865588311489cbb8e94328ede393118c9687143b102a861c4196678, (0x2f00c4bc05adf411c5d7efa08442437b1fd68836be12569a982330f5137931cb, 0x1cafc564d6643ff17b6facb0122087727756b2d52586dd7c355fa77c8c11eb57)))));
   (0xc261d0d2a1c2d9bf0dcf035b7552c6e86953a115, (10716822967427012809, (0xacfeba4441030ae56525ce03725bd0c79c45c38b440ffe0413770e27d7de1f5, (0xe411be320ce636f88d2f416d9e7d209f463d5d30473fbfaf0b011132a968bf10, (0xfafbbbec6e4c458a3b8e48f7a1ca554bf13d7095232d4574ec0efe45a6f9ffba, 0xa628334b30236e9b1d48648a3a289fb12089179c7f2c078b6e8cdd5ddced7a86)))));
   (0xd3f3f74dd3861b58194665d33dbba3af14dbad22, (3937762386132528641, (0xd44f85e7e2f88051c13c66888f1b5be16d4ba69cd16903f213bfa9fe9cdd9f6c, (0x2a8c48112467e363938f3ea638795a5e187f8c11c0264a95f56935fe079995df, (0x313f1ecbbbac66166fe4f23e8e0dd61c1c169c3a3aa08040d20078fe52bb4e17, 0x4996f7636405495ec44c340a8a879ca7b12b519566a9c7c692cefa7ce04510e7)))));
   (0xc4480761505e9c9b8bc88bcf7b1d4049bcc4616d, (1453093220627524162, (0xc90ded295100f186d25ab04930e9be17b413420866dfeb1e9ab3cc27232f8c5b, (0x10ee93d762f98b768b4bba839ae1af1a1f4dd160b26f6dae5f19bf40efd2cf09, (0x789bb1b15b71ee7b2ff2d48ac5e859547b448fd99878bc2fe351dfbae034f2ec, 0x68d254fcb5656c59283ccfbbd88efc713f20b468ebaecdf4bedadbe4780f6215)))));
   (0x1abc847ec253763876703835b476998dafc8128a, (16998818727008013161, (0x547e39181463c5f825ee54abb3191702bb80d98dd70da545839137a6a9774b71, (0x2bb95b957612bb562681148097f17b54dc0b323385501a5ac9300f69e8bd27ec, (0x336659abb8527c3515e2a926ec829040154f97c2a05e52ea1ea4155b657ecc23, 0x64a6427a29ff41301cfca61f9b3916e33d3b1b9e379796e3cabd333db0ea2f9a)))));
   (0xdaa0a6796e83a7b2c857d8c3b4a0697630a31251, (15582732660119104750, (0x3df8eeefe44a01f69251ad083fcb34fabc39e1b3bb1d867704e6748a7f3ab7dc, (0x6f33a056352bad3f27ccf61a0e5bff9782b117b32a0c5afbd5235494f7518e89, (0x2bec878676e2b85253e20e9ea0cd21e40fdf34585a894e7a35b60fb1ae7ba0c0, 0x1f7d1963b396b74367e4931d37e3450e0378238eca31fd70b036088389f8b8d1)))));
   (0xc56b9357b34dc8b053f3c15842ce91c0ccd9f2af, (14431432682241943704, (0xe6710ad2c1b5468a27bb1580e8f58c5dffa0841974dbcc40ef7dee1a8476af98, (0x3cd26dcf6116c1ef30553d7f7572fd9e4e4bc6dee87beb9e32bfcbb5d50660e6, (0xc554ac4073a854e9d97f646d233efcb08e9277d87d4261073f2bd417bb14e02d, 0x55a9a33448d0e9a9319da16f223c2635037bf7385c0bf56ce83a4403aabe2a9b)))))].
(** The bytes of a number without leading zeros, and the RLP of an account (a list of more than 55 bytes). *)
Definition minimal (n : N) : list N := be_bytes (N.to_nat ((N.size n + 7) / 8)) n.
Definition account_rlp (nonce balance storage code : N) : list N :=
  let p := flat_map encode_value [minimal nonce; minimal balance; be_bytes 32 storage; be_bytes 32 code] in
  0xf8 :: N.of_nat (length p) :: p.
Fixpoint roots_agree (pr : profile) (t : node) (l : list (N * (N * (N * (N * (N * N)))))) : bool :=
  match l with
  | [] => true
  | (a, (nonce, (balance, (storage, (code, h))))) :: l' =>
      ok (trie_insert pr t (from_h256_be (keccak256 (be_bytes 20 a))) (Val (account_rlp nonce balance storage code))) (fun t' =>
        root pr t' h && roots_agree pr t' l')
  end.
Example account_insert_hashes_agree_with_py_evm : roots_agree Debug Empty (firstn 8 accounts) = true.
Proof. vm_compute. reflexivity. Qed.

(** The same with caching tries, as in the test. *)
Definition account_ops (l : list (N * (N * (N * (N * (N * N)))))) : list op :=
  New [] :: flat_map (fun '(a, (nonce, (balance, (storage, (code, _))))) =>
    [Insert 0 (from_h256_be (keccak256 (be_bytes 20 a))) (Val (account_rlp nonce balance storage code)); HashOf 0]) l.
Definition digests (os : list obs) : list N := flat_map (fun o => match o with Digest h => [from_be h] | _ => [] end) os.
Example cached_account_hashes_agree_with_py_evm :
  ok (start keccak256 Debug (account_ops accounts)) (fun '(_, os) => bytes_eqb (digests os) (map (fun '(_, (_, (_, (_, (_, h))))) => h) accounts)) = true.
Proof. vm_compute. reflexivity. Qed.
