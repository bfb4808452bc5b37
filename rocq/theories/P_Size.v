(** Property C50: how many nodes a trie has and how deep they are. *)
From Verif Require Import Base Nibbles NibblesSpec NibblesFacts NibblesFacts2 NibblesFacts3 Trie TrieSpec TrieHistSpec TrieFacts TrieInsert TrieGet TrieDelete TrieUnique TrieIter TrieHist TrieObs HashSpec Stats StatsSpec StatsFacts SizeFacts P_Trie P_Stats.
Open Scope N_scope.

Definition non_empty_nodes (t : node) : N := N.of_nat (length (subnodes 0 t)) - how_many is_empty_node t.

Lemma hash_free_count t : hash_free t -> how_many is_hash_node t = 0.
Proof.
  intros H. unfold how_many. change (length (filter is_hash_node (subnodes 0 t))) with (c_of is_hash_node t).
  assert (E : c_of is_hash_node t = 0%nat); [|rewrite E; reflexivity]. revert H.
  induction t as [|h|ch w IH|n c IH|n w] using node_ind'; intros H; try reflexivity.
  - exfalso. apply (H [] h). reflexivity.
  - rewrite c_branch by (intros a b x; reflexivity). cbn [is_hash_node snd].
    assert (G : list_sum (map (c_of is_hash_node) ch) = 0%nat); [|rewrite G; reflexivity].
    assert (F : Forall (fun c => c_of is_hash_node c = 0%nat) ch).
    { rewrite Forall_forall in *. intros c I. apply IH; [exact I|]. intros k h E.
      destruct (In_nth _ _ Empty I) as (i & Hi & Ei). apply (H (N.of_nat i :: k) h). rewrite lk_branch. unfold child. rewrite Nnat.Nat2N.id, Ei. exact E. }
    clear - F. induction F as [|c ch E F IH]; [reflexivity|]. cbn [map list_sum fold_right]. rewrite E. exact IH.
  - rewrite c_ext by (intros a b x; reflexivity). cbn [is_hash_node snd]. rewrite IH; [reflexivity|].
    intros k h E. apply (H (nseq n ++ k) h). cbn [lk]. rewrite strip_app. exact E.
Qed.

(** A non-empty canonical trie has fewer branches than entries, not more extension nodes than branches and hash nodes, and
    so less than four nodes per entry, less than three without hash nodes. *)
Theorem C50_nodes : forall t, canon t -> t <> Empty ->
  let n := N.of_nat (length (entries t)) in
  how_many is_branch_node t < n /\ how_many is_leaf_node t + how_many is_hash_node t <= n /\
  how_many is_extension_node t <= how_many is_branch_node t + how_many is_hash_node t /\
  non_empty_nodes t < 4 * n /\ (hash_free t -> non_empty_nodes t < 3 * n).
Proof.
  intros t C NE n. pose proof (branches_entries t C) as B. pose proof (extensions_below t (canon_shape _ C)) as X.
  pose proof (entries_count t) as E. unfold n_entries in B. unfold c_of in *.
  assert (En : n = N.of_nat (length (filter is_leaf_node (subnodes 0 t)) + length (filter is_hash_node (subnodes 0 t)) + length (filter is_valued_branch (subnodes 0 t)))) by (unfold n; rewrite E; reflexivity).
  assert (B' : (length (filter is_branch_node (subnodes 0 t)) + 1 <= length (filter is_leaf_node (subnodes 0 t)) + length (filter is_hash_node (subnodes 0 t)) + length (filter is_valued_branch (subnodes 0 t)))%nat) by (destruct t; try congruence; exact B).
  pose proof (count_kinds t) as K. unfold size in K. unfold non_empty_nodes. rewrite K. pose proof (hash_free_count t) as HF. unfold how_many in *.
  split; [lia|]. split; [lia|]. split; [destruct t; lia|]. split; [destruct t; lia|]. intros H. specialize (HF H). destruct t; lia.
Qed.

(** So for tries that were built by inserting any entries ... *)
Theorem C50_inserted : forall pr l t, Forall (fun e => kwf (fst e) /\ proper (snd e)) l -> from_iter pr l = Ok t ->
  non_empty_nodes t <= 4 * N.of_nat (length (entries t)).
Proof.
  intros pr l t F E. destruct (extend_canon pr l Empty t ltac:(constructor) ltac:(constructor) F E) as [_ C].
  destruct (node_is_empty t) eqn:Z; [destruct t; try discriminate; cbn; lia|].
  assert (NE : t <> Empty) by (intros ->; discriminate). pose proof (C50_nodes t C NE) as Q. cbv zeta in Q. lia.
Qed.

(** ... or by any operations over prefix-free keys, deletes included. *)
Theorem C50_history : forall pr U ops t outs, prefix_free U -> Forall (op_ok U) ops -> trie_ops pr Empty ops = Ok (t, outs) ->
  non_empty_nodes t <= 3 * N.of_nat (length (entries t)).
Proof.
  intros pr U ops t outs PF F E. destruct (inv_ops pr U ops Empty kv_empty PF (inv_empty _) F) as (t1 & E1 & (W & C & H & _)).
  assert (t1 = t) by congruence. subst t1.
  destruct (node_is_empty t) eqn:Z; [destruct t; try discriminate; cbn; lia|].
  assert (NE : t <> Empty) by (intros ->; discriminate). pose proof (C50_nodes t C NE) as (_ & _ & _ & _ & Q).
  assert (HF : hash_free t) by (intros k h; rewrite H; destruct (fst (spec_ops kv_empty ops) k); discriminate).
  specialize (Q HF). lia.
Qed.

(** Deletes of keys that are prefixes of others leave branches with one child behind. *)
Theorem C50_nested_deletes_refuted : forall pr, exists t1 t2 t3,
  from_iter pr [(K 1 1, Val [1]); (K 2 0x11, Val [2]); (K 3 0x111, Val [3]); (K 4 0x1111, Val [4])] = Ok t1 /\
  trie_delete pr t1 (K 1 1) = Ok (t2, Some [1]) /\ trie_delete pr t2 (K 2 0x11) = Ok (t3, Some [2]) /\
  length (entries t3) = 2%nat /\ how_many is_branch_node t3 = 3.
Proof.
  intros pr. set (l := [(K 1 1, Val [1]); (K 2 0x11, Val [2]); (K 3 0x111, Val [3]); (K 4 0x1111, Val [4])]).
  exists (okn (from_iter pr l)), (okd (trie_delete pr (okn (from_iter pr l)) (K 1 1))),
    (okd (trie_delete pr (okd (trie_delete pr (okn (from_iter pr l)) (K 1 1))) (K 2 0x11))). wit pr.
Qed.

(** The depth of a node of any reachable trie is at most the length of the longest stored key, hence at most 64: no operation
    recurses deeper than 65 nodes. *)
Theorem C50_depth : forall pr t x, reach pr t -> In x (subnodes 0 t) ->
  fst x <= 64 /\ (t <> Empty -> exists j, stored t j /\ fst x <= N.of_nat (length j)).
Proof.
  intros pr t x R I. destruct (reach_valid pr t R) as [W Sh].
  assert (Q : t <> Empty -> exists j, stored t j /\ fst x <= N.of_nat (length j)).
  { intros NE. destruct (depth_stored t 64 x W Sh NE I) as (j & Sj & Lj). exists j. split; [exact Sj|lia]. }
  split; [|exact Q]. destruct (node_is_empty t) eqn:Z.
  - destruct t; try discriminate. destruct I as [<-|[]]. cbn. lia.
  - destruct Q as (j & Sj & Lj); [intros ->; discriminate|].
    pose proof (proj1 (stored_wf t 64 j W Sj)). lia.
Qed.

(** What the statistics report as the lowest depth is thus at most 64. *)
Theorem C50_stats_depth : forall pr pr' t nm s, reach pr t -> N.of_nat (length (subnodes 0 t)) < 2 ^ 32 ->
  get_trie_stats_common pr' t nm = Ok s -> s_lowest_depth s <= 64.
Proof.
  intros pr pr' t nm s R S E. destruct (C35_fits t S) as (A & B & D). destruct (C35_exact pr' t nm A B D) as (low & (_ & M) & E').
  assert (Es : s_lowest_depth s = low) by (rewrite E' in E; injection E as <-; reflexivity). rewrite Es.
  destruct M as [->|(x & I & _ & <-)]; [lia|]. exact (proj1 (C50_depth pr t x R I)).
Qed.

Example C50_example : canon ex_trie /\ reach Debug ex_trie /\ length (entries ex_trie) = 5%nat /\ non_empty_nodes ex_trie = 10 /\
  canon ex_hash /\ length (entries ex_hash) = 6%nat.
Proof.
  split; [apply ex_trie_ok|]. split; [apply reach_ex|]. split; [vm_compute; reflexivity|]. split; [vm_compute; reflexivity|].
  split; [apply ex_hash_ok|vm_compute; reflexivity].
Qed.

Print Assumptions C50_nodes.
Print Assumptions C50_inserted.
Print Assumptions C50_history.
Print Assumptions C50_nested_deletes_refuted.
Print Assumptions C50_depth.
Print Assumptions C50_stats_depth.
