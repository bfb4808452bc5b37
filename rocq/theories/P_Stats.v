(** Property C35: trie statistics. *)
From Coq Require Import SpecFloat.
From Verif Require Import Base Nibbles NibblesSpec Trie TrieSpec TrieFacts TrieHistSpec TrieHist TrieIter P_Trie Stats StatsSpec StatsFacts.
Open Scope N_scope.

(** For every trie whose numbers fit [usize]/[u64] the statistics are exact. The averages are the [f32] quotients of the
    depth sums and the counts. *)
Theorem C35_exact : forall pr t nm,
  N.of_nat (length (subnodes 0 t)) < usize_range ->
  depth_sum is_leaf_node t < usize_range -> depth_sum is_hash_node t < usize_range ->
  exists low, deepest (fun x => is_hash_node x || is_leaf_node x) t low /\
  get_trie_stats_common pr t nm =
    Ok (Stats nm
          (Counts (how_many is_empty_node t) (how_many is_hash_node t) (how_many is_branch_node t)
                  (how_many is_extension_node t) (how_many is_leaf_node t))
          low
          (f32_div (as_f32 (depth_sum is_leaf_node t)) (as_f32 (how_many is_leaf_node t)))
          (f32_div (as_f32 (depth_sum is_hash_node t)) (as_f32 (how_many is_hash_node t)))).
Proof.
  intros pr t nm S1 S2 S3. exists (dmax (subnodes 0 t)). split; [apply dmax_deepest|].
  unfold get_trie_stats_common. fold (size t) in S1.
  rewrite stats_rec_ok.
  - cbn [tracking_default adds bind counts lowest_depth leaf_depth_sum hash_depth_sum n_leaf n_hash].
    rewrite !N.add_0_l. unfold how_many, depth_sum, cnt, dsum. rewrite N.max_0_l. reflexivity.
  - intros x Hx. eapply N.lt_trans; [apply depth_lt, Hx|exact S1].
  - cbn [tracking_default adds small]. rewrite !N.add_0_l. unfold cnt, dsum.
    pose proof (how_many_le is_empty_node t). pose proof (how_many_le is_hash_node t). pose proof (how_many_le is_branch_node t).
    pose proof (how_many_le is_extension_node t). pose proof (how_many_le is_leaf_node t).
    unfold how_many, depth_sum in *. lia.
Qed.

(** That is so for every trie of less than 2^32 nodes. *)
Theorem C35_fits : forall t,
  N.of_nat (length (subnodes 0 t)) < 2 ^ 32 ->
  N.of_nat (length (subnodes 0 t)) < usize_range /\ depth_sum is_leaf_node t < usize_range /\ depth_sum is_hash_node t < usize_range.
Proof.
  intros t H. pose proof (depth_sum_le is_leaf_node t). pose proof (depth_sum_le is_hash_node t). fold (size t) in *.
  change (2 ^ 32) with 4294967296 in H. unfold usize_range. nia.
Qed.

(** The totals that comparisons report, and the shape of every trie with 16 children per branch. *)
Theorem C35_totals : forall pr L t s,
  wf L t -> N.of_nat (length (subnodes 0 t)) < usize_range ->
  s_counts s = Counts (how_many is_empty_node t) (how_many is_hash_node t) (how_many is_branch_node t)
                      (how_many is_extension_node t) (how_many is_leaf_node t) ->
  total_nodes pr (s_counts s) = Ok (1 + 16 * n_branch (s_counts s) + n_extension (s_counts s)) /\
  total_nodes pr (s_counts s) = Ok (N.of_nat (length (subnodes 0 t))) /\
  total_node_non_empty pr (s_counts s) = Ok (N.of_nat (length (subnodes 0 t)) - how_many is_empty_node t).
Proof.
  intros pr L t s W S E. fold (size t) in *. pose proof (count_kinds t) as K. pose proof (total_shape L t W) as T.
  assert (T' : size t = 1 + 16 * how_many is_branch_node t + how_many is_extension_node t) by (unfold size, how_many; change (length (subnodes 0 t)) with (nsub t); rewrite T; lia).
  rewrite E. unfold total_nodes, total_node_non_empty, hash_and_leaf_node_count. cbn [n_empty n_hash n_branch n_extension n_leaf].
  repeat (rewrite uadd_fits by lia; cbn [bind]).
  split; [f_equal; lia|]. split; f_equal; lia.
Qed.

(** Leaf nodes, hash nodes and branches with a value are the entries of the trie. *)
Theorem C35_entries : forall t,
  N.of_nat (length (entries t)) = how_many is_leaf_node t + how_many is_hash_node t + how_many is_valued_branch t.
Proof. intros t. rewrite entries_count. unfold how_many. lia. Qed.

(** A comparison has the numbers of the first trie first. *)
Theorem C35_compare : forall pr s o c, compare_stats pr s o = Ok c ->
  total_nodes pr (s_counts s) = Ok (fst (tot_node_rat c)) /\ total_nodes pr (s_counts o) = Ok (snd (tot_node_rat c)) /\
  total_node_non_empty pr (s_counts s) = Ok (fst (non_empty_rat c)) /\ total_node_non_empty pr (s_counts o) = Ok (snd (non_empty_rat c)) /\
  s_counts s = Counts (fst (empty_rat c)) (fst (hash_rat c)) (fst (branch_rat c)) (fst (extension_rat c)) (fst (leaf_rat c)) /\
  s_counts o = Counts (snd (empty_rat c)) (snd (hash_rat c)) (snd (branch_rat c)) (snd (extension_rat c)) (snd (leaf_rat c)) /\
  (s_lowest_depth s, s_lowest_depth o) = lowest_depth_rat c /\
  (avg_leaf_depth s, avg_leaf_depth o) = avg_leaf_depth_rat c /\ (avg_hash_depth s, avg_hash_depth o) = avg_hash_depth_rat c.
Proof.
  intros pr [ns [e h b x l] d al ah] [no [e' h' b' x' l'] d' al' ah'] c E. unfold compare_stats in E. cbn [s_counts s_lowest_depth avg_leaf_depth avg_hash_depth] in *.
  destruct (total_nodes pr (Counts e h b x l)) as [ta|]; [|discriminate]. cbn [bind] in E.
  destruct (total_nodes pr (Counts e' h' b' x' l')) as [tb|]; [|discriminate]. cbn [bind] in E.
  destruct (total_node_non_empty pr (Counts e h b x l)) as [na|]; [|discriminate]. cbn [bind] in E.
  destruct (total_node_non_empty pr (Counts e' h' b' x' l')) as [nb|]; [|discriminate]. cbn [bind] in E.
  injection E as <-. cbn. repeat split.
Qed.

(** A trie with an extension, three branches (one with a value), a hash node and leaves at depths 1, 3 and 4. *)
Definition stats_list : list (nibbles * val_or_hash) :=
  [(K 4 0x1234, Val [1]); (K 4 0x1256, Val [2]); (K 4 0x1257, HashV (repeat 7 32)); (K 3 0x125, Val [3]); (K 2 0x99, Val [4])].
Definition stats_trie : node := Eval vm_compute in okn (from_iter Debug stats_list).
Example C35_example :
  wf 64 stats_trie /\ N.of_nat (length (subnodes 0 stats_trie)) < 2 ^ 32 /\ N.of_nat (length (entries stats_trie)) = 5 /\
  get_trie_stats Release stats_trie =
    Ok (Stats None (Counts 42 1 3 1 3) 4 (f32_div (as_f32 8) (as_f32 3)) (f32_div (as_f32 4) (as_f32 1))) /\
  total_nodes Release (Counts 42 1 3 1 3) = Ok 50.
Proof.
  split; [|split; [|split; [|split]]]; try (vm_compute; reflexivity).
  assert (E : from_iter Debug stats_list = Ok stats_trie) by (vm_compute; reflexivity).
  apply (extend_canon Debug stats_list Empty stats_trie); [constructor|constructor| |exact E].
  repeat constructor; cbn; try (vm_compute; (reflexivity || (intro; discriminate))).
Qed.
Print Assumptions C35_exact.
Print Assumptions C35_fits.
Print Assumptions C35_totals.
Print Assumptions C35_entries.
Print Assumptions C35_compare.
