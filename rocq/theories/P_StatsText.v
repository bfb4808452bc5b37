(** Property C48, statistics: the printed numbers are those of the trie. *)
From Coq Require Import String.
From Verif Require Import Base Nibbles NibblesSpec Trie TrieSpec TrieHistSpec TrieHist P_Trie CacheFacts2 Query Diff P_Diff Text TextSpec TextFacts Stats StatsSpec StatsFacts P_Stats StatsText.
Open Scope N_scope.
Open Scope list_scope.

(** One line: how many nodes satisfy [p], and their share of all nodes in percent. *)
Definition shown_count (fl : nat -> f32 -> list N) (what : list N) (p : N * node -> bool) (t : node) : list N :=
  what ++ txt ": " ++ dec (how_many p t) ++ txt " (" ++
  fl 2%nat (f32_mul (f32_div (as_f32 (how_many p t)) (as_f32 (N.of_nat (length (subnodes 0 t))))) (as_f32 100)) ++ txt "%)" ++ newline.
Definition average (p : N * node -> bool) (t : node) : f32 := f32_div (as_f32 (depth_sum p t)) (as_f32 (how_many p t)).

Definition shown_stats (fl : nat -> f32 -> list N) (nm : option (list N)) (t : node) (low : N) : list N :=
  txt "Trie Stats:" ++ (match nm with Some n => txt " (" ++ n ++ txt ")" | None => [] end) ++ newline ++
  txt "Counts:" ++ newline ++
  shown_count fl (txt "Empty") is_empty_node t ++ shown_count fl (txt "Hash") is_hash_node t ++ shown_count fl (txt "Branch") is_branch_node t ++
  shown_count fl (txt "Extension") is_extension_node t ++ shown_count fl (txt "Leaf") is_leaf_node t ++ newline ++
  txt "Depth stats:" ++ newline ++ txt "Lowest depth: " ++ dec low ++ newline ++
  txt "Average leaf depth: " ++ fl 3%nat (average is_leaf_node t) ++ newline ++
  txt "Average hash depth: " ++ fl 3%nat (average is_hash_node t) ++ newline ++ newline.

Theorem C48_stats_text : forall fl pr L t nm, wf L t ->
  N.of_nat (length (subnodes 0 t)) < usize_range -> depth_sum is_leaf_node t < usize_range -> depth_sum is_hash_node t < usize_range ->
  exists low s, deepest (fun x => is_hash_node x || is_leaf_node x) t low /\ get_trie_stats_common pr t nm = Ok s /\
    stats_text fl pr s = Ok (shown_stats fl nm t low).
Proof.
  intros fl pr L t nm W S1 S2 S3. destruct (C35_exact pr t nm S1 S2 S3) as (low & D & E). exists low. eexists. split; [exact D|]. split; [exact E|].
  unfold stats_text, counts_text. cbn [s_counts name]. 
  match goal with |- context [total_nodes pr ?c] => destruct (C35_totals pr L t (Stats nm c low (as_f32 0) (as_f32 0)) W S1 eq_refl) as (_ & T & _) end.
  cbn [s_counts] in T. rewrite T. cbn [bind]. f_equal. unfold shown_stats, shown_count, count_line, depth_text, average, newline.
  cbn [n_empty n_hash n_branch n_extension n_leaf s_lowest_depth avg_leaf_depth avg_hash_depth].
  destruct nm; rewrite <- !app_assoc; reflexivity.
Qed.

(** The same for the two calls of the interface: with a name it is printed, without one it is not. *)
Theorem C48_stats_calls : forall fl pr L t nm, wf L t ->
  N.of_nat (length (subnodes 0 t)) < usize_range -> depth_sum is_leaf_node t < usize_range -> depth_sum is_hash_node t < usize_range ->
  exists low s s', deepest (fun x => is_hash_node x || is_leaf_node x) t low /\
    get_trie_stats pr t = Ok s /\ name s = None /\ stats_text fl pr s = Ok (shown_stats fl None t low) /\
    get_trie_stats_with_name pr t nm = Ok s' /\ name s' = Some nm /\ stats_text fl pr s' = Ok (shown_stats fl (Some nm) t low).
Proof.
  intros fl pr L t nm W S1 S2 S3. destruct (C48_stats_text fl pr L t None W S1 S2 S3) as (low & s & D & E & T).
  destruct (C48_stats_text fl pr L t (Some nm) W S1 S2 S3) as (low' & s' & D' & E' & T').
  assert (low = low') as <-.
  { destruct D as [A [B|(x & B1 & B2 & B3)]], D' as [A' [B'|(y & C1 & C2 & C3)]]; subst.
    - reflexivity.
    - specialize (A _ C1 C2). lia.
    - specialize (A' _ B1 B2). lia.
    - specialize (A _ C1 C2). specialize (A' _ B1 B2). lia. }
  exists low, s, s'. unfold get_trie_stats, get_trie_stats_with_name. repeat (split; [first [eassumption | idtac]|]); [..|exact T'];
  unfold get_trie_stats_common in *; destruct (get_trie_stats_rec pr t tracking_default 0); try discriminate; cbn [bind] in *.
  - injection E as <-. reflexivity.
  - injection E' as <-. reflexivity.
Qed.

(** The numbers can be read back, if the texts of [f32]s have no line break. *)
Lemma line_inj (fl : nat -> f32 -> list N) x y a b r s : (forall k z, free 10 (fl k z)) ->
  dec x ++ txt " (" ++ fl 2%nat a ++ txt "%)" ++ [10] ++ r = dec y ++ txt " (" ++ fl 2%nat b ++ txt "%)" ++ [10] ++ s -> x = y /\ r = s.
Proof.
  intros F E. apply peel in E; [|apply words_dec|apply words_dec|reflexivity|reflexivity]. destruct E as [E1 E]. split; [apply dec_inj, E1|].
  apply app_inv_head in E. rewrite (app_assoc (fl _ a)), (app_assoc (fl _ b)) in E. cbn [app] in E. apply split_at in E; [apply E| |]; (apply free_app; [apply F|free_tac]).
Qed.
Theorem C48_stats_unambiguous : forall fl pr s s', (forall k z, free 10 (fl k z)) -> name s = name s' ->
  (exists x, stats_text fl pr s = Ok x /\ stats_text fl pr s' = Ok x) -> s_counts s = s_counts s' /\ s_lowest_depth s = s_lowest_depth s'.
Proof.
  intros fl pr s s' F N (x & E & E'). unfold stats_text, counts_text in *. rewrite <- N in E'.
  destruct (total_nodes pr (s_counts s)) as [tot|]; [|discriminate]. destruct (total_nodes pr (s_counts s')) as [tot'|]; [|discriminate].
  cbn [bind] in *. rewrite <- E' in E. apply (f_equal (fun r => match r with Ok a => a | Panic => [] end)) in E. clear E' x.
  apply app_inv_head in E. do 2 apply app_inv_head in E. unfold count_line, depth_text in E. rewrite <- !app_assoc in E.
  destruct (s_counts s) as [c1 c2 c3 c4 c5], (s_counts s') as [d1 d2 d3 d4 d5]. cbn [n_empty n_hash n_branch n_extension n_leaf] in E.
  do 2 apply app_inv_head in E. apply line_inj in E; [|exact F]. destruct E as [<- E].
  do 2 apply app_inv_head in E. apply line_inj in E; [|exact F]. destruct E as [<- E].
  do 2 apply app_inv_head in E. apply line_inj in E; [|exact F]. destruct E as [<- E].
  do 2 apply app_inv_head in E. apply line_inj in E; [|exact F]. destruct E as [<- E].
  do 2 apply app_inv_head in E. apply line_inj in E; [|exact F]. destruct E as [<- E].
  do 4 apply app_inv_head in E. apply peel in E; [|apply words_dec|apply words_dec|reflexivity|reflexivity]. destruct E as [E _]. apply dec_inj in E. auto.
Qed.

(** Comparisons: the text determines all integers of both tries, first trie first. *)
Lemma ratio_inj fl a b r s : (forall k z, free 10 (fl k z)) -> ratio_text fl a ++ [10] ++ r = ratio_text fl b ++ [10] ++ s -> a = b /\ r = s.
Proof.
  intros F E. unfold ratio_text in E. rewrite <- !app_assoc in E. apply peel in E; [|apply words_dec|apply words_dec|reflexivity|reflexivity].
  destruct E as [E1 E]. apply dec_inj in E1. apply app_inv_head in E. apply peel in E; [|apply words_dec|apply words_dec|reflexivity|reflexivity].
  destruct E as [E2 E]. apply dec_inj in E2. apply app_inv_head in E. rewrite (app_assoc (fl _ (a_over_b_perc a))), (app_assoc (fl _ (a_over_b_perc b))) in E. cbn [app] in E.
  apply split_at in E; [|apply free_app; [apply F|free_tac]|apply free_app; [apply F|free_tac]]. destruct a, b. cbn [fst snd] in *. subst. split; [reflexivity|apply E].
Qed.
Theorem C48_comparison_unambiguous : forall fl c d, (forall k z, free 10 (fl k z)) -> comparison_text fl c = comparison_text fl d ->
  tot_node_rat c = tot_node_rat d /\ non_empty_rat c = non_empty_rat d /\ empty_rat c = empty_rat d /\ hash_rat c = hash_rat d /\
  branch_rat c = branch_rat d /\ extension_rat c = extension_rat d /\ leaf_rat c = leaf_rat d /\ lowest_depth_rat c = lowest_depth_rat d.
Proof.
  intros fl c d F E. unfold comparison_text in E. do 2 apply app_inv_head in E.
  apply ratio_inj in E; [|exact F]. destruct E as [-> E]. apply app_inv_head in E.
  apply ratio_inj in E; [|exact F]. destruct E as [-> E]. apply app_inv_head in E.
  apply ratio_inj in E; [|exact F]. destruct E as [-> E]. apply app_inv_head in E.
  apply ratio_inj in E; [|exact F]. destruct E as [-> E]. apply app_inv_head in E.
  apply ratio_inj in E; [|exact F]. destruct E as [-> E]. apply app_inv_head in E.
  apply ratio_inj in E; [|exact F]. destruct E as [-> E]. apply app_inv_head in E.
  apply ratio_inj in E; [|exact F]. destruct E as [-> E]. do 3 apply app_inv_head in E.
  apply ratio_inj in E; [|exact F]. destruct E as [-> E]. repeat split.
Qed.

(** The text of a comparison is made of these lines. *)
Theorem C48_comparison_lines : forall fl pr s o c, compare_stats pr s o = Ok c ->
  exists ta tb na nb, total_nodes pr (s_counts s) = Ok ta /\ total_nodes pr (s_counts o) = Ok tb /\
    total_node_non_empty pr (s_counts s) = Ok na /\ total_node_non_empty pr (s_counts o) = Ok nb /\
    let line what a b := what ++ txt ": " ++ dec a ++ txt " / " ++ dec b ++ txt " (" ++ fl 3%nat (f32_mul (f32_div (as_f32 a) (as_f32 b)) (as_f32 100)) ++ txt "%)" ++ newline in
    let average_line what a b := what ++ txt ": " ++ fl 3%nat a ++ txt " / " ++ fl 3%nat b ++ txt " (" ++ fl 3%nat (f32_mul (f32_div a b) (as_f32 100)) ++ txt "%)" ++ newline in
    comparison_text fl c =
      txt "Node comparison: " ++ line (txt "Total nodes") ta tb ++ line (txt "Non-empty") na nb ++
      line (txt "Total empty") (n_empty (s_counts s)) (n_empty (s_counts o)) ++ line (txt "Total hash") (n_hash (s_counts s)) (n_hash (s_counts o)) ++
      line (txt "Total branch") (n_branch (s_counts s)) (n_branch (s_counts o)) ++
      line (txt "Total extension") (n_extension (s_counts s)) (n_extension (s_counts o)) ++
      line (txt "Total leaf") (n_leaf (s_counts s)) (n_leaf (s_counts o)) ++ newline ++
      txt "Depth comparison: " ++ line (txt "Lowest depth") (s_lowest_depth s) (s_lowest_depth o) ++
      average_line (txt "Avg leaf depth") (avg_leaf_depth s) (avg_leaf_depth o) ++
      average_line (txt "Avg hash depth") (avg_hash_depth s) (avg_hash_depth o) ++ newline.
Proof.
  intros fl pr s o c E. destruct (C35_compare pr s o c E) as (A1 & A2 & A3 & A4 & A5 & A6 & A7 & A8 & A9).
  exists (fst (tot_node_rat c)), (snd (tot_node_rat c)), (fst (non_empty_rat c)), (snd (non_empty_rat c)).
  split; [exact A1|]. split; [exact A2|]. split; [exact A3|]. split; [exact A4|]. cbv zeta. rewrite A5, A6. cbn [n_empty n_hash n_branch n_extension n_leaf].
  unfold comparison_text, ratio_text, ratio_text_f32, newline. rewrite <- !app_assoc. rewrite <- A7, <- A8, <- A9. reflexivity.
Qed.

Definition some_fl (k : nat) (x : f32) : list N := txt "?".
Example C48_stats_example : let t := okn (from_iter Debug [(K 4 0x1234, Val [1]); (K 4 0x1256, Val [2])]) in
  wf 64 t /\ (forall k z, free 10 (some_fl k z)) /\
  exists s, get_trie_stats Debug t = Ok s /\
    stats_text some_fl Debug s = Ok (txt "Trie Stats:" ++ [10] ++ txt "Counts:" ++ [10] ++ txt "Empty: 14 (?%)" ++ [10] ++ txt "Hash: 0 (?%)" ++ [10] ++
      txt "Branch: 1 (?%)" ++ [10] ++ txt "Extension: 1 (?%)" ++ [10] ++ txt "Leaf: 2 (?%)" ++ [10] ++ [10] ++
      txt "Depth stats:" ++ [10] ++ txt "Lowest depth: 2" ++ [10] ++ txt "Average leaf depth: ?" ++ [10] ++ txt "Average hash depth: ?" ++ [10] ++ [10]).
Proof.
  cbv zeta. split; [|split; [intros; repeat constructor; discriminate|eexists; split; [vm_compute; reflexivity|vm_compute; reflexivity]]].
  assert (R : reach Debug (okn (from_iter Debug [(K 4 0x1234, Val [1]); (K 4 0x1256, Val [2])]))) by (reach_tac [(K 4 0x1234, Val [1]); (K 4 0x1256, Val [2])]).
  exact (proj1 (reach_valid Debug _ R)).
Qed.

Print Assumptions C48_stats_text.
Print Assumptions C48_stats_calls.
Print Assumptions C48_stats_unambiguous.
Print Assumptions C48_comparison_unambiguous.
Print Assumptions C48_comparison_lines.
