(** Facts about what build profiles change: nothing, or a panic in one of them. *)
From Coq Require Import String.
From Verif Require Import Base Nibbles Query Diff Stats Values Rlp Hashing Subset.
From Verif Require Import Trie TrieFacts HideFacts Cache Serde DiffCache CacheSpec ProfileSpec.
From Verif Require Import Trie.
Open Scope N_scope.
Open Scope list_scope.

Notation same := panics_or_same.
Lemma s_refl {A} (r : res A) : same r r.
Proof. right. reflexivity. Qed.
Lemma s_panic {A} (r : res A) : same Panic r.
Proof. left. reflexivity. Qed.
Lemma s_bind {A B} (m m' : res A) (f g : A -> res B) : same m m' -> (forall a, same (f a) (g a)) -> same (bind m f) (bind m' g).
Proof. intros [->| ->] H; [apply s_panic|]. destruct m' as [a|]; [apply H|apply s_panic]. Qed.
Lemma s_rmap {A B} (f : A -> B) (m m' : res A) : same m m' -> same (rmap f m) (rmap f m').
Proof. intros [->| ->]; [apply s_panic|apply s_refl]. Qed.
Lemma s_child {A} (f g : node -> res A) : forall l i, (forall c, In c l -> same (f c) (g c)) -> same (with_child f l i) (with_child g l i).
Proof. intros l i H. rewrite !with_child_nth. destruct (nth_error l i) as [c|] eqn:E; [|apply s_panic]. apply H. eapply nth_error_In, E. Qed.
Create HintDb same.
Ltac sm1 :=
  match goal with
  | |- same ?x ?x => apply s_refl
  | |- same Panic _ => apply s_panic
  | |- same (bind _ _) (bind _ _) => apply s_bind; [|intros ?]
  | |- same (rmap _ _) (rmap _ _) => apply s_rmap
  | |- same (match ?x with _ => _ end) (match ?x with _ => _ end) => destruct x
  | |- same (with_child _ _ _) (with_child _ _ _) => apply s_child; intros ? ?
  | |- _ => solve [eauto 3 with same]
  end.
Ltac sm := repeat sm1.

Section Facts.
Variable pr : profile.
Lemma s_usub a b : same (usub Debug a b) (usub pr a b).
Proof. unfold usub. sm. Qed.
Lemma s_uadd a b : same (uadd Debug a b) (uadd pr a b).
Proof. unfold uadd. sm. Qed.
Lemma s_umul a b : same (umul Debug a b) (umul pr a b).
Proof. unfold umul. sm. Qed.
Hint Resolve s_usub s_uadd s_umul : same.

(** ** Keys *)
Lemma s_get_nibble n i : same (get_nibble Debug n i) (get_nibble pr n i).
Proof. unfold get_nibble. sm. Qed.
Lemma s_get_nibble_range n i j : same (get_nibble_range Debug n i j) (get_nibble_range pr n i j).
Proof. unfold get_nibble_range. cbv zeta. sm. Qed.
Hint Resolve s_get_nibble s_get_nibble_range : same.
Lemma s_get_next_nibbles n i : same (get_next_nibbles Debug n i) (get_next_nibbles pr n i).
Proof. unfold get_next_nibbles. sm. Qed.
Lemma s_truncate_front n i : same (truncate_n_nibbles_front Debug n i) (truncate_n_nibbles_front pr n i).
Proof. unfold truncate_n_nibbles_front. cbv zeta. sm. Qed.
Lemma s_truncate_back n i : same (truncate_n_nibbles_back Debug n i) (truncate_n_nibbles_back pr n i).
Proof. unfold truncate_n_nibbles_back. cbv zeta. sm. Qed.
Hint Resolve s_get_next_nibbles s_truncate_front s_truncate_back : same.
Lemma s_pop_next_front n : same (pop_next_nibble_front Debug n) (pop_next_nibble_front pr n).
Proof. unfold pop_next_nibble_front. sm. Qed.
Lemma s_pop_next_back n : same (pop_next_nibble_back Debug n) (pop_next_nibble_back pr n).
Proof. unfold pop_next_nibble_back. sm. Qed.
Lemma s_pop_front n i : same (pop_nibbles_front Debug n i) (pop_nibbles_front pr n i).
Proof. unfold pop_nibbles_front. sm. Qed.
Lemma s_pop_back n i : same (pop_nibbles_back Debug n i) (pop_nibbles_back pr n i).
Proof. unfold pop_nibbles_back. sm. Qed.
Lemma s_push_nibbles_front n m : same (push_nibbles_front Debug n m) (push_nibbles_front pr n m).
Proof. unfold push_nibbles_front. sm. Qed.
Lemma s_merge_nibbles n m : same (merge_nibbles Debug n m) (merge_nibbles pr n m).
Proof. unfold merge_nibbles. sm. Qed.
Lemma s_split_at n i : same (split_at_idx Debug n i) (split_at_idx pr n i).
Proof. unfold split_at_idx. cbv zeta. sm. Qed.
Lemma s_split_prefix n i : same (split_at_idx_prefix Debug n i) (split_at_idx_prefix pr n i).
Proof. unfold split_at_idx_prefix. cbv zeta. sm. Qed.
Lemma s_split_postfix n i : same (split_at_idx_postfix Debug n i) (split_at_idx_postfix pr n i).
Proof. unfold split_at_idx_postfix. cbv zeta. sm. Qed.
Lemma s_identical a b : same (identical_up_to_smallest Debug a b) (identical_up_to_smallest pr a b).
Proof.
  unfold identical_up_to_smallest. generalize (N.to_nat (N.min (count a) (count b))) as m. generalize 0. intros i m. revert i.
  induction m as [|m IH]; intros i; cbn [identical_loop]; sm.
Qed.
Hint Resolve s_pop_next_front s_pop_next_back s_pop_front s_pop_back s_push_nibbles_front s_merge_nibbles s_split_at s_split_prefix s_split_postfix s_identical : same.
Lemma s_find_diff_equal a b : same (find_diff_equal Debug a b) (find_diff_equal pr a b).
Proof. unfold find_diff_equal. sm. Qed.
Hint Resolve s_find_diff_equal : same.
Lemma s_find_diff a b : same (find_diff Debug a b) (find_diff pr a b).
Proof. unfold find_diff. cbv zeta. sm. Qed.
Lemma s_min_bytes n : same (min_bytes Debug n) (min_bytes pr n).
Proof. unfold min_bytes. sm. Qed.
Hint Resolve s_find_diff s_min_bytes : same.
Lemma s_bytes_be n : same (bytes_be Debug n) (bytes_be pr n).
Proof. unfold bytes_be. sm. Qed.
Lemma s_as_hex_str u n : same (as_hex_str Debug u n) (as_hex_str pr u n).
Proof. unfold as_hex_str. cbv zeta. apply s_bind; [apply s_min_bytes|]. intros m. apply s_refl. Qed.
Hint Resolve s_as_hex_str : same.
Lemma s_try_into_u256 n : same (try_into_u256 Debug n) (try_into_u256 pr n).
Proof. unfold try_into_u256. sm. Qed.
Lemma s_to_hex_prefix n l : same (to_hex_prefix_encoding Debug n l) (to_hex_prefix_encoding pr n l).
Proof. unfold to_hex_prefix_encoding. apply s_bind; [apply s_uadd|]. intros a. apply s_bind; [apply s_uadd|]. intros b. apply s_refl. Qed.
Hint Resolve s_bytes_be s_try_into_u256 s_to_hex_prefix : same.

(** ** Tries *)
Lemma s_pre_post a b : same (get_pre_and_postfixes Debug a b) (get_pre_and_postfixes pr a b).
Proof. unfold get_pre_and_postfixes. sm. Qed.
Lemma s_ins_entry i k v : same (ins_entry_into_leaf_and_nibble Debug i k v) (ins_entry_into_leaf_and_nibble pr i k v).
Proof. unfold ins_entry_into_leaf_and_nibble. sm. Qed.
Hint Resolve s_pre_post s_ins_entry : same.
Lemma s_placement i e k v : same (check_placement Debug i e k v) (check_placement pr i e k v).
Proof. unfold check_placement. cbv zeta. sm. Qed.
Hint Resolve s_placement : same.
Lemma s_place_branch i e k v : same (place_branch Debug i e k v) (place_branch pr i e k v).
Proof. unfold place_branch. cbv zeta. sm. Qed.
Hint Resolve s_place_branch : same.
Lemma s_insert : forall t k v, same (trie_insert Debug t k v) (trie_insert pr t k v).
Proof.
  unfold trie_insert. induction t as [|h|ch val IH|n c IH|n val] using node_ind'; intros k v; cbn [insert_rec]; sm.
  - rewrite Forall_forall in IH. apply IH. assumption.
Qed.
Hint Resolve s_insert : same.
Lemma s_extend : forall l t, same (trie_extend Debug t l) (trie_extend pr t l).
Proof. induction l as [|[k v] l IH]; intros t; cbn [trie_extend]; sm. Qed.
Lemma s_get : forall t k, same (trie_get Debug t k) (trie_get pr t k).
Proof.
  induction t as [|h|ch val IH|n c IH|n val] using node_ind'; intros k; cbn [trie_get]; sm.
  - rewrite Forall_forall in IH. apply IH. assumption.
Qed.
Lemma s_collapse e c : same (collapse_ext_node_if_needed Debug e c) (collapse_ext_node_if_needed pr e c).
Proof. unfold collapse_ext_node_if_needed. sm. Qed.
Hint Resolve s_extend s_get s_collapse : same.
Lemma s_try_collapse c : same (try_collapse_if_extension Debug c) (try_collapse_if_extension pr c).
Proof. unfold try_collapse_if_extension. sm. Qed.
Hint Resolve s_try_collapse : same.
Lemma s_delete_intern : forall t k, same (delete_intern Debug t k) (delete_intern pr t k).
Proof.
  induction t as [|h|ch val IH|n c IH|n val] using node_ind'; intros k; cbn [delete_intern]; sm.
  - rewrite Forall_forall in IH. apply IH. assumption.
Qed.
Hint Resolve s_delete_intern : same.
Lemma s_delete t k : same (trie_delete Debug t k) (trie_delete pr t k).
Proof. unfold trie_delete. sm. Qed.
Lemma s_advance : forall t k st, same (advance Debug t k st) (advance pr t k st).
Proof.
  induction t as [|h|ch val IH|n c IH|n val] using node_ind'; intros k st; cbn [advance]; sm.
  - rewrite Forall_forall in IH. apply IH. assumption.
Qed.
Hint Resolve s_delete s_advance : same.
Lemma s_next_step st : same (next_step Debug st) (next_step pr st).
Proof. unfold next_step. cbv zeta. sm. Qed.
Lemma s_next : forall fuel st, loop_panics_or_same (next fuel Debug st) (next fuel pr st).
Proof.
  induction fuel as [|fuel IH]; intros st; cbn [next]; [right; reflexivity|]. destruct (s_next_step st) as [E|E]; rewrite E; [left; reflexivity|].
  destruct (next_step pr st) as [[[st' [it|]]|]|]; try (right; reflexivity). apply IH.
Qed.
Lemma s_collect fuel : forall calls st, loop_panics_or_same (collect calls fuel Debug st) (collect calls fuel pr st).
Proof.
  induction calls as [|calls IH]; intros st; cbn [collect]; [right; reflexivity|]. destruct (s_next fuel st) as [E|E]; rewrite E; [left; reflexivity|].
  destruct (next fuel pr st) as [[[st' [it|]]|]|]; try (right; reflexivity). destruct (IH st') as [E2|E2]; rewrite E2; [left; reflexivity|right; reflexivity].
Qed.
Lemma s_items fuel t : loop_panics_or_same (trie_items fuel Debug t) (trie_items fuel pr t).
Proof. apply s_collect. Qed.

(** ** Hashing, subsets *)
Variable keccak : list N -> list N.
Lemma s_encode : forall t, same (rlp_encode_and_hash_node keccak Debug t) (rlp_encode_and_hash_node keccak pr t).
Proof.
  induction t as [|h|ch val IH|n c IH|n val] using node_ind'; cbn [rlp_encode_and_hash_node]; sm.
  generalize new_list. induction ch as [|c ch IHc]; intros s; [apply s_refl|]. inversion IH; subst. sm.
Qed.
Hint Resolve s_encode : same.
Lemma s_hash t : same (hash_trie keccak Debug t) (hash_trie keccak pr t).
Proof. unfold hash_trie. sm. Qed.
Lemma s_tracked {E} (f g : tracked -> res (result tracked E)) : forall l i, (forall c, In c l -> same (f c) (g c)) -> same (with_tracked f l i) (with_tracked g l i).
Proof.
  induction l as [|c l IH]; intros i H; [apply s_panic|]. destruct i as [|i]; cbn [with_tracked].
  - apply s_bind; [apply H; left; reflexivity|]. intros a. apply s_refl.
  - apply s_bind; [apply IH; intros x I; apply H; right; exact I|]. intros a. apply s_refl.
Qed.
Fixpoint tracked_ind' (P : tracked -> Prop) (He : forall u b, P (Subset.TEmpty u b)) (Hh : forall u b, P (Subset.THash u b))
  (Hb : forall ch u b, Forall P ch -> P (Subset.TBranch ch u b)) (Hx : forall c u b, P c -> P (Subset.TExtension c u b)) (Hl : forall u b, P (Subset.TLeaf u b)) (t : tracked) : P t :=
  match t with
  | Subset.TEmpty u b => He u b
  | Subset.THash u b => Hh u b
  | Subset.TBranch ch u b => Hb ch u b ((fix go l : Forall P l := match l with [] => Forall_nil _ | c :: l' => Forall_cons _ (tracked_ind' P He Hh Hb Hx Hl c) (go l') end) ch)
  | Subset.TExtension c u b => Hx c u b (tracked_ind' P He Hh Hb Hx Hl c)
  | Subset.TLeaf u b => Hl u b
  end.
Lemma s_mark : forall t k, same (mark Debug t k) (mark pr t k).
Proof.
  induction t as [u b|u b|ch u b IH|c u b IH|u b] using tracked_ind'; intros k; cbn [mark]; sm.
  apply s_tracked. rewrite Forall_forall in IH. intros c I. apply IH, I.
Qed.
Hint Resolve s_hash s_mark : same.
Lemma s_mark_all : forall ks t, same (mark_all Debug t ks) (mark_all pr t ks).
Proof. induction ks as [|k ks IH]; intros t; cbn [mark_all]; sm. Qed.
Lemma s_create : forall t, same (create_from_tracked keccak Debug t) (create_from_tracked keccak pr t).
Proof.
  induction t as [u b|u b|ch u b IH|c u b IH|u b] using tracked_ind'; cbn [create_from_tracked touched]; sm.
  all: induction ch as [|c ch IHc]; [apply s_refl|]; inversion IH; subst; sm.
Qed.
Hint Resolve s_mark_all s_create : same.
Lemma s_subset_intern t ks : same (create_trie_subset_intern keccak Debug t ks) (create_trie_subset_intern keccak pr t ks).
Proof. unfold create_trie_subset_intern. sm. Qed.
Hint Resolve s_subset_intern : same.
Lemma s_subset t ks : same (create_trie_subset keccak Debug t ks) (create_trie_subset keccak pr t ks).
Proof. unfold create_trie_subset. sm. Qed.
Lemma s_subsets_from : forall kss t, same (create_subsets_from keccak Debug t kss) (create_subsets_from keccak pr t kss).
Proof. induction kss as [|ks kss IH]; intros t; cbn [create_subsets_from]; sm. Qed.
Lemma s_subsets t kss : same (create_trie_subsets keccak Debug t kss) (create_trie_subsets keccak pr t kss).
Proof. apply s_subsets_from. Qed.

(** ** Debug tools *)
Lemma s_stats_rec : forall t st d, same (get_trie_stats_rec Debug t st d) (get_trie_stats_rec pr t st d).
Proof.
  induction t as [|h|ch val IH|n c IH|n val] using node_ind'; intros [[e h' b x l] ls hs low] d; cbn [get_trie_stats_rec]; sm.
  match goal with |- same (_ ch ?s) _ => generalize s end. induction ch as [|c ch IHc]; intros st; [apply s_refl|]. inversion IH; subst. sm.
Qed.
Hint Resolve s_stats_rec : same.
Lemma s_stats t nm : same (get_trie_stats_common Debug t nm) (get_trie_stats_common pr t nm).
Proof. unfold get_trie_stats_common. sm. Qed.
Lemma s_total_non_empty c : same (total_node_non_empty Debug c) (total_node_non_empty pr c).
Proof. unfold total_node_non_empty, hash_and_leaf_node_count. sm. Qed.
Hint Resolve s_total_non_empty : same.
Lemma s_total c : same (total_nodes Debug c) (total_nodes pr c).
Proof. unfold total_nodes. sm. Qed.
Hint Resolve s_total : same.
Lemma s_compare a b : same (compare_stats Debug a b) (compare_stats pr a b).
Proof. unfold compare_stats. sm. Qed.
Lemma s_segment t k : same (get_segment Debug t k) (get_segment pr t k).
Proof. unfold get_segment. sm. Qed.
Lemma s_pulling t k : same (key_piece_pulling Debug t k) (key_piece_pulling pr t k).
Proof. unfold key_piece_pulling. sm. Qed.
Lemma s_clamped t k : same (next_nibbles_clamped Debug t k) (next_nibbles_clamped pr t k).
Proof. unfold next_nibbles_clamped. sm. Qed.
Hint Resolve s_segment s_pulling s_clamped : same.
Lemma s_path : forall t k out, same (get_path_rec Debug t k out) (get_path_rec pr t k out).
Proof.
  induction t as [|h|ch val IH|n c IH|n val] using node_ind'; intros k out; cbn [get_path_rec]; cbv zeta; sm.
  - rewrite Forall_forall in IH. apply IH. assumption.
Qed.
Hint Resolve s_path : same.
Lemma s_query t k : same (get_path_from_query Debug t k) (get_path_from_query pr t k).
Proof. unfold get_path_from_query. sm. Qed.
Lemma s_point_new a b k p : same (diff_point_new keccak Debug a b k p) (diff_point_new keccak pr a b k p).
Proof. unfold diff_point_new, node_info_new. sm. Qed.
Hint Resolve s_point_new : same.
Lemma s_replace f a b st : same (replace_longest keccak Debug f a b st) (replace_longest keccak pr f a b st).
Proof. unfold replace_longest. sm. Qed.
Hint Resolve s_replace : same.
Lemma s_update_hash ds a b st : same (update_hash keccak Debug ds a b st) (update_hash keccak pr ds a b st).
Proof. unfold update_hash. sm. Qed.
Lemma s_update_node ds a b st : same (update_node keccak Debug ds a b st) (update_node keccak pr ds a b st).
Proof. unfold update_node. sm. Qed.
Lemma s_parent st p k : same (new_from_parent Debug st p k) (new_from_parent pr st p k).
Proof. unfold new_from_parent. sm. Qed.
Hint Resolve s_update_hash s_update_node s_parent : same.
Lemma s_from_hashes ha hb a b st ds : same (from_hashes keccak Debug ha hb a b st ds) (from_hashes keccak pr ha hb a b st ds).
Proof. unfold from_hashes. sm. Qed.
Hint Resolve s_from_hashes : same.
Lemma s_gen a b st ds : same (from_gen_hashes keccak Debug a b st ds) (from_gen_hashes keccak pr a b st ds).
Proof. unfold from_gen_hashes. sm. Qed.
Hint Resolve s_gen : same.
Lemma s_find : forall a b st ds, same (find_latest_rec keccak Debug a b st ds) (find_latest_rec keccak pr a b st ds).
Proof.
  induction a as [|h|ch val IH|n c IH|n val] using node_ind'; intros b st ds; cbn [find_latest_rec].
  all: try (destruct b as [|h'|bch bv|n' c'|n' v']; sm; fail).
  destruct b as [|h'|bch bv|n' c'|n' v']; try (sm; fail).
  apply s_bind; [apply s_hash|]. intros ah. apply s_bind; [apply s_hash|]. intros bh. destruct (bytes_eqb ah bh); [apply s_refl|]. destruct (_ && _); [sm|].
  apply s_bind; [|intros [f ds']; sm]. remember (Branch ch val) as p eqn:Hp. clear Hp. generalize NoDiffDetected, ds, bch. generalize 0.
  induction ch as [|c ch IHc]; intros i f ds' l; [apply s_refl|]. destruct l as [|b l]; [apply s_refl|]. inversion IH as [|? ? Hc Hch]; subst.
  apply s_bind; [apply s_refl|]. intros nn. apply s_bind; [apply s_parent|]. intros st'. apply s_bind; [apply Hc|]. intros [r ds'']. apply IHc, Hch.
Qed.
Hint Resolve s_find : same.
Lemma s_diff a b : same (create_diff keccak Debug a b) (create_diff keccak pr a b).
Proof. unfold create_diff. sm. Qed.

(** ** Values *)
Lemma s_val_from_eth w v : same (val_from_eth Debug w v) (val_from_eth pr w v).
Proof.
  unfold val_from_eth, to_big_endian. cbv zeta. sm. destruct pr; [apply s_refl|]. unfold assert. destruct (Nat.eqb _ _); [apply s_refl|apply s_panic].
Qed.
Hint Resolve s_subset s_subsets s_diff : same.
Lemma s_vstep ts o : same (vstep keccak Debug ts o) (vstep keccak pr ts o).
Proof. destruct o; cbn [vstep]; unfold from_iter; sm. Qed.
End Facts.
