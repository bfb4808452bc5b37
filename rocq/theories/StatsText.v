(** Model of the text output ([Display]) of /repo/src/debug_tools/stats.rs. [fl k x] stands for the text of [{:.k}] of the [f32] [x]:
    [f32_text] in FloatText.v; the precision has no effect on integers. [to_f32] (num_traits) does not fail for [usize]
    and [f32], so [fmt::Error] does not arise. *)
From Coq Require Import String.
From Verif Require Import Base Nibbles Trie Query Rlp Hashing Cache Diff Text Stats.
Open Scope N_scope.
Open Scope list_scope.

(** stats.rs:65-73 [write_node_count_stats]. *)
Definition count_line (fl : nat -> f32 -> list N) (node_t_name : list N) (count tot_count : N) : list N :=
  let perc := f32_mul (f32_div (as_f32 count) (as_f32 tot_count)) (as_f32 100) in
  node_t_name ++ txt ": " ++ dec count ++ txt " (" ++ fl 2%nat perc ++ txt "%)" ++ [10].

(** stats.rs:52-62 [Display for NodeCounts]. *)
Definition counts_text (fl : nat -> f32 -> list N) (pr : profile) (c : node_counts) : res (list N) :=
  tot <- total_nodes pr c ;;
  Ok (count_line fl (txt "Empty") (n_empty c) tot ++ count_line fl (txt "Hash") (n_hash c) tot ++ count_line fl (txt "Branch") (n_branch c) tot ++
      count_line fl (txt "Extension") (n_extension c) tot ++ count_line fl (txt "Leaf") (n_leaf c) tot).

(** stats.rs:225-231 [Display for DepthStats]. *)
Definition depth_text (fl : nat -> f32 -> list N) (s : trie_stats) : list N :=
  txt "Lowest depth: " ++ dec (s_lowest_depth s) ++ [10] ++
  txt "Average leaf depth: " ++ fl 3%nat (avg_leaf_depth s) ++ [10] ++
  txt "Average hash depth: " ++ fl 3%nat (avg_hash_depth s) ++ [10].

(** stats.rs:19-31 [Display for TrieStats]. *)
Definition stats_text (fl : nat -> f32 -> list N) (pr : profile) (s : trie_stats) : res (list N) :=
  let a := txt "Trie Stats:" ++ match name s with Some n => txt " (" ++ n ++ txt ")" ++ [10] | None => [10] end in
  c <- counts_text fl pr (s_counts s) ;;
  Ok (a ++ txt "Counts:" ++ [10] ++ c ++ [10] ++ txt "Depth stats:" ++ [10] ++ depth_text fl s ++ [10]).

(** stats.rs:167-179 [Display for RatioStat], for [usize] and for [f32] fields; 188-194. *)
Definition ratio_text (fl : nat -> f32 -> list N) (r : N * N) : list N :=
  dec (fst r) ++ txt " / " ++ dec (snd r) ++ txt " (" ++ fl 3%nat (a_over_b_perc r) ++ txt "%)".
Definition ratio_text_f32 (fl : nat -> f32 -> list N) (r : f32 * f32) : list N :=
  fl 3%nat (fst r) ++ txt " / " ++ fl 3%nat (snd r) ++ txt " (" ++ fl 3%nat (f32_mul (f32_div (fst r) (snd r)) (as_f32 100)) ++ txt "%)".

(** stats.rs:112-117 [Display for TrieComparison], 132-143 [NodeComparison], 152-158 [DepthComparison]. *)
Definition comparison_text (fl : nat -> f32 -> list N) (c : comparison_of) : list N :=
  txt "Node comparison: " ++
  txt "Total nodes: " ++ ratio_text fl (tot_node_rat c) ++ [10] ++
  txt "Non-empty: " ++ ratio_text fl (non_empty_rat c) ++ [10] ++
  txt "Total empty: " ++ ratio_text fl (empty_rat c) ++ [10] ++
  txt "Total hash: " ++ ratio_text fl (hash_rat c) ++ [10] ++
  txt "Total branch: " ++ ratio_text fl (branch_rat c) ++ [10] ++
  txt "Total extension: " ++ ratio_text fl (extension_rat c) ++ [10] ++
  txt "Total leaf: " ++ ratio_text fl (leaf_rat c) ++ [10] ++ [10] ++
  txt "Depth comparison: " ++
  txt "Lowest depth: " ++ ratio_text fl (lowest_depth_rat c) ++ [10] ++
  txt "Avg leaf depth: " ++ ratio_text_f32 fl (avg_leaf_depth_rat c) ++ [10] ++
  txt "Avg hash depth: " ++ ratio_text_f32 fl (avg_hash_depth_rat c) ++ [10] ++ [10].
