(** Model of the [Debug] output of the types of /repo/src/debug_tools/stats.rs, all derived. It shows [f32] fields with the fewest digits
    that identify them. External code: core::fmt::float ([float_to_general_debug]) and core::num::flt2dec ([to_shortest_str],
    [to_shortest_exp_str]); the digits are what the Dragon strategy there computes. *)
From Coq Require Import String SpecFloat.
From Verif Require Import Base Nibbles Trie Query Rlp Hashing Cache Diff Subset Text Stats FloatText DebugText.
Open Scope N_scope.
Open Scope list_scope.

(** All numbers in units of [2^-151 * 10^-46]. [ten j] is [10^(j-46)]. *)
Definition ten (j : nat) : N := 2 ^ 151 * 10 ^ N.of_nat j.
(** A quarter of the unit in the last place of a number with exponent [e]. *)
Definition quarter (e : Z) : N := 2 ^ Z.to_N (e + 149) * 10 ^ 46.
Definition scaled (m : positive) (e : Z) : N := 4 * N.pos m * quarter e.
(** The numbers that round to [m * 2^e] lie between these two; they belong to them if [m] is even. *)
Definition low_end (m : positive) (e : Z) : N := (4 * N.pos m - (if N.pos m =? 2 ^ 23 then 1 else 2)) * quarter e.
Definition high_end (m : positive) (e : Z) : N := (4 * N.pos m + 2) * quarter e.
Definition inside (m : positive) (e : Z) (a : N) : bool :=
  if N.even (N.pos m) then (low_end m e <=? a) && (a <=? high_end m e) else (low_end m e <? a) && (a <? high_end m e).

(** The shortest digits: the multiple [n] of the greatest power of ten, from [ten j] downwards, that lies between the ends. The one below or the
    one above, whichever is nearer, if both do. *)
Fixpoint shortest (m : positive) (e : Z) (j : nat) : N * nat :=
  let w := scaled m e in
  let n := w / ten j in
  let down := inside m e (n * ten j) in
  let up := inside m e ((n + 1) * ten j) in
  if up && (negb down || (ten j <=? 2 * (w - n * ten j))) then (n + 1, j)
  else if down then (n, j)
  else match j with O => (n, j) | S j' => shortest m e j' end.

(** [n * ten j] with a decimal point and at least one digit after it; and with an exponent. *)
Definition plain_text (n : N) (j : nat) : list N :=
  let k := Nat.max 1 (46 - j) in fixed_text k (n * 10 ^ N.of_nat (j + k - 46)).
Definition exponent_text (x : Z) : list N := (if (x <? 0)%Z then txt "-" else []) ++ dec (Z.abs_N x).
Definition exp_text (n : N) (j : nat) : list N :=
  match dec n with
  | [] => []
  | d :: ds => [d] ++ (match ds with [] => [] | _ => txt "." ++ ds end) ++ txt "e" ++ exponent_text (Z.of_nat (j + length ds) - 46)
  end.
(** [{:?}] of an [f32]. The constants are [1e-4] and [1e16] as [f32]. *)
Definition f32_debug (x : f32) : list N :=
  match x with
  | S754_nan => txt "NaN"
  | S754_infinity s => (if s then txt "-" else []) ++ txt "inf"
  | S754_zero s => (if s then txt "-" else []) ++ txt "0.0"
  | S754_finite s m e =>
      let '(n, j) := shortest m e 85 in
      (if s then txt "-" else []) ++
      (if (scaled 13743895 (-37) <=? scaled m e) && (scaled m e <? scaled 9313226 30) then plain_text n j else exp_text n j)
  end.
Definition f32_dbg (x : f32) : dbg := DWord (f32_debug x).

(** stats.rs:43-50 [NodeCounts], 217-222 [DepthStats], 12-17 [TrieStats]. *)
Definition counts_dbg (c : node_counts) : dbg :=
  DStruct (txt "NodeCounts") [(txt "empty", num_dbg (n_empty c)); (txt "hash", num_dbg (n_hash c)); (txt "branch", num_dbg (n_branch c));
                              (txt "extension", num_dbg (n_extension c)); (txt "leaf", num_dbg (n_leaf c))].
Definition stats_dbg (s : trie_stats) : dbg :=
  DStruct (txt "TrieStats") [(txt "name", option_dbg DText (name s)); (txt "counts", counts_dbg (s_counts s));
    (txt "depth_stats", DStruct (txt "DepthStats") [(txt "lowest_depth", num_dbg (s_lowest_depth s)); (txt "avg_leaf_depth", f32_dbg (avg_leaf_depth s));
                                                   (txt "avg_hash_depth", f32_dbg (avg_hash_depth s))])].
(** stats.rs:160-165 [RatioStat], 119-130 [NodeComparison], 145-150 [DepthComparison], 105-110 [TrieComparison]. *)
Definition ratio_dbg {A} (f : A -> dbg) (r : A * A) : dbg := DStruct (txt "RatioStat") [(txt "a", f (fst r)); (txt "b", f (snd r))].
Definition comparison_dbg (c : comparison_of) : dbg :=
  DStruct (txt "TrieComparison")
    [(txt "node_comp", DStruct (txt "NodeComparison")
       [(txt "tot_node_rat", ratio_dbg num_dbg (tot_node_rat c)); (txt "non_empty_rat", ratio_dbg num_dbg (non_empty_rat c)); (txt "empty_rat", ratio_dbg num_dbg (empty_rat c));
        (txt "hash_rat", ratio_dbg num_dbg (hash_rat c)); (txt "branch_rat", ratio_dbg num_dbg (branch_rat c)); (txt "extension_rat", ratio_dbg num_dbg (extension_rat c));
        (txt "leaf_rat", ratio_dbg num_dbg (leaf_rat c))]);
     (txt "depth_comp", DStruct (txt "DepthComparison")
       [(txt "lowest_depth_rat", ratio_dbg num_dbg (lowest_depth_rat c)); (txt "avg_leaf_depth_rat", ratio_dbg f32_dbg (avg_leaf_depth_rat c));
        (txt "avg_hash_depth_rat", ratio_dbg f32_dbg (avg_hash_depth_rat c))])].
(** [format!("{:?}", _)] and [format!("{:#?}", _)] of [TrieStats] and [TrieComparison]. *)
Definition debug_stats (pretty : bool) (s : trie_stats) : list N := put pretty (stats_dbg s).
Definition debug_comparison (pretty : bool) (c : comparison_of) : list N := put pretty (comparison_dbg c).
