(** Model of /repo/src/debug_tools/stats.rs. Text output ([Display]): StatsText.v. *)
From Coq Require Import SpecFloat.
From Verif Require Import Base Nibbles Trie.
Open Scope N_scope.

(** [f32]: IEEE 754 binary32, as specified by Coq's [SpecFloat]. [n as f32] and [to_f32] round to nearest even. *)
Definition f32 : Type := spec_float.
Definition as_f32 (n : N) : f32 := binary_normalize 24 128 (Z.of_N n) 0 false.
Definition f32_div (a b : f32) : f32 := SFdiv 24 128 a b.
Definition f32_mul (a b : f32) : f32 := SFmul 24 128 a b.

(** stats.rs:43-50 [struct NodeCounts]. *)
Record node_counts : Type := Counts { n_empty : N; n_hash : N; n_branch : N; n_extension : N; n_leaf : N }.

(** stats.rs:199-207 [struct CurrTrackingState]. *)
Record tracking : Type := Tracking { counts : node_counts; leaf_depth_sum : N; hash_depth_sum : N; lowest_depth : N }.
Definition tracking_default : tracking := Tracking (Counts 0 0 0 0 0) 0 0 0.

(** stats.rs:210-214 [update_lowest_depth_if_larger]. *)
Definition update_lowest_depth (lowest curr_depth : N) : N := if lowest <? curr_depth then curr_depth else lowest.

(** stats.rs:269-303 [get_trie_stats_rec]. [+=] on [usize] and [u64]; [curr_depth as u64] is exact. *)
Fixpoint get_trie_stats_rec (pr : profile) (t : node) (st : tracking) (curr_depth : N) {struct t} : res tracking :=
  match st with
  | Tracking (Counts e h b x l) ls hs low =>
      match t with
      | Empty =>
          e <- uadd pr e 1 ;;
          Ok (Tracking (Counts e h b x l) ls hs low)
      | Hash _ =>
          h <- uadd pr h 1 ;;
          hs <- uadd pr hs curr_depth ;;
          Ok (Tracking (Counts e h b x l) ls hs (update_lowest_depth low curr_depth))
      | Branch ch _ =>
          b <- uadd pr b 1 ;;
          (fix go (cs : list node) (st : tracking) {struct cs} : res tracking :=
             match cs with
             | [] => Ok st
             | c :: cs' =>
                 d <- uadd pr curr_depth 1 ;;
                 st <- get_trie_stats_rec pr c st d ;;
                 go cs' st
             end) ch (Tracking (Counts e h b x l) ls hs low)
      | Extension _ c =>
          x <- uadd pr x 1 ;;
          d <- uadd pr curr_depth 1 ;;
          get_trie_stats_rec pr c (Tracking (Counts e h b x l) ls hs low) d
      | Leaf _ _ =>
          l <- uadd pr l 1 ;;
          ls <- uadd pr ls curr_depth ;;
          Ok (Tracking (Counts e h b x l) ls hs (update_lowest_depth low curr_depth))
      end
  end.

(** stats.rs:12-17 [struct TrieStats], 218-223 [struct DepthStats]. The [name] is text. *)
Record trie_stats : Type := Stats {
  name : option (list N); s_counts : node_counts; s_lowest_depth : N; avg_leaf_depth : f32; avg_hash_depth : f32
}.

(** stats.rs:251-267 [get_trie_stats_common]. *)
Definition get_trie_stats_common (pr : profile) (t : node) (nm : option (list N)) : res trie_stats :=
  st <- get_trie_stats_rec pr t tracking_default 0 ;;
  Ok (Stats nm (counts st) (lowest_depth st)
        (f32_div (as_f32 (leaf_depth_sum st)) (as_f32 (n_leaf (counts st))))
        (f32_div (as_f32 (hash_depth_sum st)) (as_f32 (n_hash (counts st))))).

(** stats.rs:243-249 [get_trie_stats], [get_trie_stats_with_name]. *)
Definition get_trie_stats (pr : profile) (t : node) : res trie_stats := get_trie_stats_common pr t None.
Definition get_trie_stats_with_name (pr : profile) (t : node) (nm : list N) : res trie_stats := get_trie_stats_common pr t (Some nm).

(** stats.rs:85-87 [hash_and_leaf_node_count], 81-83 [total_node_non_empty], 77-79 [total_nodes]. *)
Definition hash_and_leaf_node_count (pr : profile) (c : node_counts) : res N := uadd pr (n_hash c) (n_leaf c).
Definition total_node_non_empty (pr : profile) (c : node_counts) : res N :=
  a <- uadd pr (n_branch c) (n_extension c) ;;
  b <- hash_and_leaf_node_count pr c ;;
  uadd pr a b.
Definition total_nodes (pr : profile) (c : node_counts) : res N :=
  a <- total_node_non_empty pr c ;;
  uadd pr (n_empty c) a.

(** stats.rs:162-165 [struct RatioStat], 121-130 [NodeComparison], 146-150 [DepthComparison], 107-110 [TrieComparison]. *)
Record comparison_of : Type := Comparison {
  tot_node_rat : N * N; non_empty_rat : N * N; empty_rat : N * N; hash_rat : N * N; branch_rat : N * N;
  extension_rat : N * N; leaf_rat : N * N;
  lowest_depth_rat : N * N; avg_leaf_depth_rat : f32 * f32; avg_hash_depth_rat : f32 * f32
}.

(** stats.rs:34-39, 89-102 and 234-240, the three [compare]. *)
Definition compare_stats (pr : profile) (s o : trie_stats) : res comparison_of :=
  ta <- total_nodes pr (s_counts s) ;;
  tb <- total_nodes pr (s_counts o) ;;
  na <- total_node_non_empty pr (s_counts s) ;;
  nb <- total_node_non_empty pr (s_counts o) ;;
  Ok (Comparison (ta, tb) (na, nb) (n_empty (s_counts s), n_empty (s_counts o)) (n_hash (s_counts s), n_hash (s_counts o))
        (n_branch (s_counts s), n_branch (s_counts o)) (n_extension (s_counts s), n_extension (s_counts o))
        (n_leaf (s_counts s), n_leaf (s_counts o)) (s_lowest_depth s, s_lowest_depth o)
        (avg_leaf_depth s, avg_leaf_depth o) (avg_hash_depth s, avg_hash_depth o)).

(** stats.rs:188-194 [get_a_over_b_perc] for [usize] fields. *)
Definition a_over_b_perc (r : N * N) : f32 := f32_mul (f32_div (as_f32 (fst r)) (as_f32 (snd r))) (as_f32 100).
