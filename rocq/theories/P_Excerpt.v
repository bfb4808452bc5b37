(** Property C79: what path queries, diffs and statistics say about a partial trie. *)
From Verif Require Import Base Nibbles NibblesSpec NibblesFacts NibblesFacts2 NibblesFacts3 Trie TrieSpec TrieHistSpec TrieFacts TrieInsert TrieGet TrieDelete TrieUnique TrieIter TrieHist TrieObs InsertWf Rlp YellowPaper Hashing Keccak HashSpec HideSpec HashFacts KeccakFacts HideFacts HideBind.
From Verif Require Import Query QuerySpec Diff Stats StatsSpec StatsFacts ExcerptFacts P_Trie P_Query P_Diff P_Stats P_Hash.
From Verif Require Subset SubsetFacts P_Subset.
Open Scope N_scope.

(** A path query gives the same on a partial trie [t'] of [t], or it ends at the hash node that stands for a node [u] of [t]:
    up to there it is the same, and the query on [t], if it does not panic, goes on with [u]. *)
Theorem C79_query : forall keccak pr t t' k,
  wf 64 t -> kwf k -> hides keccak t t' ->
  get_path_from_query pr t' k = get_path_from_query pr t k \/
  exists path infos u found,
    get_path_from_query pr t' k = Ok (QOut k (path ++ [SHash]) (infos ++ [Some (XHash (keccak (RLP (HashSpec.item keccak u))))]) found) /\
    length infos = length path /\ not_hash u /\ In u (map snd (subnodes 0 t)) /\
    forall out, get_path_from_query pr t k = Ok out ->
      exists seg path2 infos2, node_path out = path ++ seg :: path2 /\ seg_type seg = type_of u /\ extra_node_info out = infos ++ extra_of u :: infos2.
Proof.
  intros keccak pr t t' k W Hk H. rewrite (C37_exact_partial pr t k W Hk), (C37_exact_partial pr t' k (hides_wf _ _ _ _ H W) Hk).
  destruct (walk_hides keccak t t' (nseq k) H) as [A|(ns' & p' & u & r & E & L & Nu & I & B)]; [left|right].
  - unfold same_walk in A. destruct (walk t (nseq k)) as [[[ns p] r]|], (walk t' (nseq k)) as [[[ns' p'] r']|]; try contradiction; [|reflexivity].
    destruct A as (-> & -> & ->). reflexivity.
  - rewrite E. exists p', (map extra_of ns'), u, (match r with [] => true | _ => false end). split; [rewrite map_app; reflexivity|].
    split; [rewrite map_length; exact L|]. split; [exact Nu|]. split; [exact I|].
    intros out Eo. destruct (walk t (nseq k)) as [[[ns p] r0]|]; [|discriminate]. injection Eo as <-.
    destruct (B _ _ _ eq_refl) as (ns1 & ns2 & s & p2 & -> & M & -> & T). exists s, p2, (map extra_of ns2). cbn [node_path extra_node_info].
    rewrite map_app, M. auto.
Qed.
Print Assumptions C79_query.

(** A path query that does not end at a hash node is the one on the complete trie, and one that panics panics there. *)
Theorem C79_query_complete : forall keccak pr t t' k,
  wf 64 t -> kwf k -> hides keccak t t' ->
  (forall out, get_path_from_query pr t' k = Ok out -> ~ In SHash (node_path out)) ->
  get_path_from_query pr t k = get_path_from_query pr t' k.
Proof.
  intros keccak pr t t' k W Hk H U. destruct (C79_query keccak pr t t' k W Hk H) as [E|(p & i & u & f & E & _)]; [auto|exfalso].
  apply (U _ E). cbn [node_path]. apply in_or_app. right. left. reflexivity.
Qed.
Print Assumptions C79_query_complete.

(** No difference is found between two partial tries of one trie. *)
Theorem C79_diff : forall keccak pr t a b,
  hash32 keccak -> wf 64 t -> fits t -> hides keccak t a -> hides keccak t b -> create_diff keccak pr a b = Ok None.
Proof.
  intros keccak pr t a b K W F Ha Hb. apply C36_equal; eauto using hides_wf, hides_fits.
  rewrite (C20_hiding_keeps_root keccak pr t a K W F Ha), (C20_hiding_keeps_root keccak pr t b K W F Hb). reflexivity.
Qed.
Print Assumptions C79_diff.

(** The statistics of a partial trie are not larger, except for the number of hash nodes, which grows by at most the number of
    other non-empty nodes that are gone. *)
Theorem C79_stats : forall keccak pr t t' s nm,
  shape t -> hides keccak t t' -> N.of_nat (length (subnodes 0 t)) < 2 ^ 32 -> get_trie_stats_common pr t nm = Ok s ->
  exists s', get_trie_stats_common pr t' nm = Ok s' /\
    n_empty (s_counts s') <= n_empty (s_counts s) /\ n_branch (s_counts s') <= n_branch (s_counts s) /\
    n_extension (s_counts s') <= n_extension (s_counts s) /\ n_leaf (s_counts s') <= n_leaf (s_counts s) /\
    n_hash (s_counts s') + n_branch (s_counts s') + n_extension (s_counts s') + n_leaf (s_counts s') <=
    n_hash (s_counts s) + n_branch (s_counts s) + n_extension (s_counts s) + n_leaf (s_counts s) /\
    s_lowest_depth s' <= s_lowest_depth s.
Proof.
  intros keccak pr t t' s nm Sh H L E.
  assert (L' : N.of_nat (length (subnodes 0 t')) < 2 ^ 32).
  { pose proof (filter_hides keccak (fun _ => true) (fun _ _ _ _ e => e) t t' 0 H) as Q. assert (X : forall l : list (N * node), filter (fun _ => true) l = l) by (induction l as [|y l IHl]; [reflexivity|cbn [filter]; rewrite IHl; reflexivity]). rewrite !X in Q. lia. }
  destruct (C35_fits t L) as (A1 & A2 & A3). destruct (C35_fits t' L') as (B1 & B2 & B3).
  destruct (C35_exact pr t nm A1 A2 A3) as (low & D & Es). destruct (C35_exact pr t' nm B1 B2 B3) as (low' & D' & Es').
  rewrite Es in E. injection E as <-. eexists. split; [exact Es'|]. cbn [s_counts s_lowest_depth n_empty n_branch n_extension n_leaf n_hash].
  assert (M : forall q : N * node -> bool, (forall d u v, hides keccak u v -> q (d, v) = true -> q (d, u) = true) -> how_many q t' <= how_many q t).
  { intros q Q. pose proof (filter_hides keccak q Q t t' 0 H). unfold how_many. lia. }
  assert (C : forall u, how_many is_hash_node u + how_many is_branch_node u + how_many is_extension_node u + how_many is_leaf_node u = how_many (fun x => negb (is_empty_node x)) u).
  { intros u. pose proof (count_kinds u) as Q. assert (R : forall l, (length (filter is_empty_node l) + length (filter (fun x => negb (is_empty_node x)) l) = length l)%nat) by (induction l as [|y l IHl]; [reflexivity|cbn [filter]; destruct (is_empty_node y); cbn [negb length]; lia]). specialize (R (subnodes 0 u)). unfold size, how_many in *. change (length (subnodes 0 u)) with (nsub u) in *. lia. }
  rewrite !C. repeat split.
  - apply M. intros d u v Q. destruct v; cbn; try discriminate. intros _. apply hides_empty_iff in Q. destruct Q as [_ Q]. rewrite (Q eq_refl). reflexivity.
  - apply M. intros d u v Q. destruct v; cbn; try discriminate. intros _. inversion Q; reflexivity.
  - apply M. intros d u v Q. destruct v; cbn; try discriminate. intros _. inversion Q; reflexivity.
  - apply M. intros d u v Q. destruct v; cbn; try discriminate. intros _. inversion Q; reflexivity.
  - apply M. intros d u v Q. apply hides_empty_iff in Q. destruct Q as [Q _]. destruct u; cbn; try reflexivity. rewrite (Q eq_refl). discriminate.
  - exact (deepest_hides keccak t t' _ _ Sh H D D').
Qed.
Print Assumptions C79_stats.

(** [ex_big] and its subset for 0x5678 and 0x1999: a query for a key that is kept, one that ends at a hash node, and the
    statistics. *)
Example C79_example : wf 64 ex_big /\ shape ex_big /\ fits ex_big /\ hides keccak256 ex_big P_Subset.ex_subset /\ P_Subset.ex_subset <> ex_big /\
  N.of_nat (length (subnodes 0 ex_big)) < 2 ^ 32 /\
  (exists out, get_path_from_query Debug P_Subset.ex_subset (K 4 0x1999) = Ok out /\ get_path_from_query Debug ex_big (K 4 0x1999) = Ok out /\ ~ In SHash (node_path out)) /\
  (exists k out, get_path_from_query Debug P_Subset.ex_subset k = Ok out /\ get_path_from_query Debug ex_big k <> Ok out /\ In SHash (node_path out)) /\
  exists s, get_trie_stats Debug ex_big = Ok s /\ get_trie_stats Debug P_Subset.ex_subset <> Ok s.
Proof.
  destruct P_Subset.C22_example as (W & F & E & _). pose proof (P_Subset.subset_hides keccak256 Debug ex_big P_Subset.ex_keys P_Subset.ex_subset keccak256_32 W F E) as H.
  split; [exact W|]. split; [apply canon_shape; exact (proj1 (proj2 (proj2 ex_big_ok)))|]. split; [exact F|]. split; [exact H|]. split; [vm_compute; discriminate|]. split; [vm_compute; reflexivity|].
  split; [|split].
  - eexists. split; [vm_compute; reflexivity|]. split; [vm_compute; reflexivity|]. cbn [node_path]. intros [I|[I|[]]]; discriminate.
  - exists (K 4 0x5900). eexists. split; [vm_compute; reflexivity|]. split; [vm_compute; discriminate|]. cbn [node_path]. right. right. right. left. reflexivity.
  - eexists. split; [vm_compute; reflexivity|vm_compute; discriminate].
Qed.
