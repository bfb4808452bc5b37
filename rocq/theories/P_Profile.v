(** Property C85: debug and release builds. *)
From Coq Require Import String.
From Verif Require Import Base Nibbles NibblesFacts Query Diff Stats Values Text DebugText StatsText Errors QueryBuild Rlp Hashing HashFacts Subset.
From Verif Require Import Trie TrieSpec TrieFacts TrieInsert TrieDelete TrieHistSpec TrieHist TrieIter GetSpec HideFacts Cache CacheFacts Serde DiffCache CacheSpec UserSpec ProfileSpec ProfileFacts ProfileFacts2 P_Nibbles P_Trie.
From Verif Require Import NibblesSpec HashSpec NibblesFacts2 TrieGet GetExact DebugText Text TrieHistSpec Trie.
Open Scope N_scope.
Open Scope list_scope.

(** * Any call *)
(** With overflow checks a call panics or does what it does in another build: whatever the key, well-formed or not. *)
Theorem C85_keys : forall pr n m i j upper leaf,
  panics_or_same (get_nibble Debug n i) (get_nibble pr n i) /\
  panics_or_same (get_nibble_range Debug n i j) (get_nibble_range pr n i j) /\
  panics_or_same (get_next_nibbles Debug n i) (get_next_nibbles pr n i) /\
  panics_or_same (truncate_n_nibbles_front Debug n i) (truncate_n_nibbles_front pr n i) /\
  panics_or_same (truncate_n_nibbles_back Debug n i) (truncate_n_nibbles_back pr n i) /\
  panics_or_same (pop_next_nibble_front Debug n) (pop_next_nibble_front pr n) /\
  panics_or_same (pop_next_nibble_back Debug n) (pop_next_nibble_back pr n) /\
  panics_or_same (pop_nibbles_front Debug n i) (pop_nibbles_front pr n i) /\
  panics_or_same (pop_nibbles_back Debug n i) (pop_nibbles_back pr n i) /\
  panics_or_same (push_nibbles_front Debug n m) (push_nibbles_front pr n m) /\
  panics_or_same (merge_nibbles Debug n m) (merge_nibbles pr n m) /\
  panics_or_same (split_at_idx Debug n i) (split_at_idx pr n i) /\
  panics_or_same (split_at_idx_prefix Debug n i) (split_at_idx_prefix pr n i) /\
  panics_or_same (split_at_idx_postfix Debug n i) (split_at_idx_postfix pr n i) /\
  panics_or_same (identical_up_to_smallest Debug n m) (identical_up_to_smallest pr n m) /\
  panics_or_same (find_diff_equal Debug n m) (find_diff_equal pr n m) /\
  panics_or_same (find_diff Debug n m) (find_diff pr n m) /\
  panics_or_same (bytes_be Debug n) (bytes_be pr n) /\
  panics_or_same (as_hex_str Debug upper n) (as_hex_str pr upper n) /\
  panics_or_same (try_into_u256 Debug n) (try_into_u256 pr n) /\
  panics_or_same (to_hex_prefix_encoding Debug n leaf) (to_hex_prefix_encoding pr n leaf).
Proof.
  intros pr n m i j upper leaf. repeat (split; [solve [auto using s_get_nibble, s_get_nibble_range, s_get_next_nibbles, s_truncate_front, s_truncate_back, s_pop_next_front, s_pop_next_back,
    s_pop_front, s_pop_back, s_push_nibbles_front, s_merge_nibbles, s_split_at, s_split_prefix, s_split_postfix, s_identical, s_find_diff_equal, s_find_diff, s_bytes_be, s_as_hex_str, s_try_into_u256]|]).
  apply s_to_hex_prefix.
Qed.
Print Assumptions C85_keys.

(** Whatever the trie, built by the API or by hand. *)
Theorem C85_tries : forall keccak pr t b k v l ks kss fuel,
  panics_or_same (trie_insert Debug t k v) (trie_insert pr t k v) /\
  panics_or_same (trie_extend Debug t l) (trie_extend pr t l) /\
  panics_or_same (from_iter Debug l) (from_iter pr l) /\
  panics_or_same (trie_get Debug t k) (trie_get pr t k) /\
  panics_or_same (trie_delete Debug t k) (trie_delete pr t k) /\
  loop_panics_or_same (trie_items fuel Debug t) (trie_items fuel pr t) /\
  panics_or_same (hash_trie keccak Debug t) (hash_trie keccak pr t) /\
  panics_or_same (create_trie_subset keccak Debug t ks) (create_trie_subset keccak pr t ks) /\
  panics_or_same (create_trie_subsets keccak Debug t kss) (create_trie_subsets keccak pr t kss) /\
  panics_or_same (create_diff keccak Debug t b) (create_diff keccak pr t b) /\
  panics_or_same (get_path_from_query Debug t k) (get_path_from_query pr t k) /\
  (forall nm, panics_or_same (get_trie_stats_common Debug t nm) (get_trie_stats_common pr t nm)).
Proof.
  intros keccak pr t b k v l ks kss fuel. split; [apply s_insert|]. split; [apply s_extend|]. split; [apply s_extend|]. split; [apply s_get|]. split; [apply s_delete|]. split; [apply s_items|].
  split; [apply s_hash|]. split; [apply s_subset|]. split; [apply s_subsets|]. split; [apply s_diff|]. split; [apply s_query|]. intros nm. apply s_stats.
Qed.
Print Assumptions C85_tries.

(** Values made from integers, comparisons of statistics. *)
Theorem C85_values : forall pr v a b,
  panics_or_same (val_from_u128 Debug v) (val_from_u128 pr v) /\
  panics_or_same (val_from_u256 Debug v) (val_from_u256 pr v) /\
  panics_or_same (val_from_u512 Debug v) (val_from_u512 pr v) /\
  panics_or_same (compare_stats Debug a b) (compare_stats pr a b).
Proof. intros pr v a b. repeat (split; [apply s_val_from_eth|]). apply s_compare. Qed.
Print Assumptions C85_values.

(** Printing. *)
Section Texts.
Variable pr : profile.
Hint Resolve s_usub s_as_hex_str s_total : same.
Lemma s_key_text n : same (key_text Debug n) (key_text pr n).
Proof. apply s_as_hex_str. Qed.
Hint Resolve s_key_text : same.
Lemma s_segment_text s : same (segment_text Debug s) (segment_text pr s).
Proof. unfold segment_text. sm. Qed.
Hint Resolve s_segment_text : same.
Lemma s_path_loop : forall l, same (path_loop Debug l) (path_loop pr l).
Proof. induction l as [|s l IH]; cbn [path_loop]; sm. Qed.
Hint Resolve s_path_loop : same.
Lemma s_path_text p : same (path_text Debug p) (path_text pr p).
Proof. unfold path_text. sm. Qed.
Lemma s_node_text ps s e : same (query_node_text Debug ps s e) (query_node_text pr ps s e).
Proof. unfold query_node_text. cbv zeta. sm. Qed.
Hint Resolve s_path_text s_node_text : same.
Lemma s_query_loop ps x : forall l i, same (query_loop Debug ps x i l) (query_loop pr ps x i l).
Proof. induction l as [|s l IH]; intros i; cbn [query_loop]; sm. Qed.
Hint Resolve s_query_loop : same.
Lemma s_query_text ps o : same (query_text Debug ps o) (query_text pr ps o).
Proof. unfold query_text, header_text. sm. Qed.
Lemma s_diff_text d : same (diff_text Debug d) (diff_text pr d).
Proof. unfold diff_text, point_text, info_text. sm. Qed.
Lemma s_key_dbg n : same (key_dbg Debug n) (key_dbg pr n).
Proof. unfold key_dbg. sm. Qed.
Hint Resolve s_key_dbg : same.
Lemma s_trie_dbg : forall t, same (trie_dbg Debug t) (trie_dbg pr t).
Proof.
  induction t as [|h|ch val IH|n c IH|n val] using node_ind'; cbn [trie_dbg]; sm.
  induction ch as [|c ch IHc]; [apply s_refl|]. inversion IH; subst. sm.
Qed.
Hint Resolve s_trie_dbg : same.
Lemma s_segments_dbg : forall l, same (segments_dbg Debug l) (segments_dbg pr l).
Proof. induction l as [|s l IH]; cbn [segments_dbg]; [apply s_refl|]. unfold segment_dbg. sm. Qed.
Hint Resolve s_segments_dbg : same.
Lemma s_stats_text fl s : same (stats_text fl Debug s) (stats_text fl pr s).
Proof. unfold stats_text, counts_text. cbv zeta. sm. Qed.
Lemma p_handle_dbg locked : forall t path, psame (handle_dbg Debug locked path t) (handle_dbg pr locked path t).
Proof.
  induction t as [c|c h|c ch val IH|c n t IH|c n val] using hnode_ind'; intros path; cbn [handle_dbg]; pm.
  generalize 0%nat. induction ch as [|x ch IHc]; intros i; [apply p_refl|]. inversion IH as [|? ? Hx Hch]; subst. pm.
Qed.
End Texts.
Theorem C85_texts : forall pr pretty n t ps o d fl s e,
  panics_or_same (key_text Debug n) (key_text pr n) /\
  panics_or_same (debug_nibbles Debug pretty n) (debug_nibbles pr pretty n) /\
  panics_or_same (debug_trie Debug pretty t) (debug_trie pr pretty t) /\
  panics_or_same (query_text Debug ps o) (query_text pr ps o) /\
  panics_or_same (debug_output Debug pretty o ps) (debug_output pr pretty o ps) /\
  panics_or_same (diff_text Debug d) (diff_text pr d) /\
  panics_or_same (debug_diff Debug pretty d) (debug_diff pr pretty d) /\
  panics_or_same (stats_text fl Debug s) (stats_text fl pr s) /\
  panics_or_same (subset_error_text Debug e) (subset_error_text pr e) /\
  (forall locked h c m, panics_or_same (exec (debug_handle Debug locked pretty h) c m) (exec (debug_handle pr locked pretty h) c m)).
Proof.
  intros pr pretty n t ps o d fl s e. split; [apply s_key_text|]. split; [apply s_bind; [apply s_key_dbg|intros; apply s_refl]|]. split; [apply s_bind; [apply s_trie_dbg|intros; apply s_refl]|].
  split; [apply s_query_text|]. split; [unfold debug_output, output_dbg, path_dbg; repeat (first [apply s_key_dbg|apply s_segments_dbg|sm1])|].
  split; [apply s_diff_text|]. split; [unfold debug_diff, diff_dbg, point_dbg, info_dbg, path_dbg; repeat (first [apply s_key_dbg|apply s_segments_dbg|sm1])|].
  split; [apply s_stats_text|]. split; [unfold subset_error_text; repeat (first [apply s_key_text|sm1])|].
  intros locked h c m. apply p_exec. unfold debug_handle. apply p_bind; [apply p_handle_dbg|intros; apply p_refl].
Qed.
Print Assumptions C85_texts.

(** * Programs *)
(** A program of calls on handles with caches, each chosen from the answers so far: with checks it panics somewhere, or ends with the same handles, the same result and
    the same caches in any build. The same on plain tries. *)
Theorem C85_program : forall keccak pr A (u : user A),
  panics_or_same (play keccak Debug u) (play keccak pr u) /\
  (forall ts, panics_or_same (vplay keccak Debug ts u) (vplay keccak pr ts u)) /\
  (forall hs s n, panics_or_same (exec (hplay keccak Debug hs u) s n) (exec (hplay keccak pr hs u) s n)) /\
  (forall hs os s n, panics_or_same (exec (hrun keccak Debug hs os) s n) (exec (hrun keccak pr hs os) s n)).
Proof.
  intros keccak pr A u. split; [apply s_play|]. split; [intros ts; apply s_vplay|]. split; intros; apply p_exec; [apply p_hplay|apply p_hrun].
Qed.
Print Assumptions C85_program.

(** Threads that share handles, under any schedule: as long as no thread has panicked with checks, no thread has panicked in the other build, the same threads are done,
    with the same results, and the caches are the same. *)
Theorem C85_threads : forall keccak pr A (jobs : list (list hnode * user A)) s n js,
  let w := sched_run (threads_of keccak Debug jobs s n) js in
  let w' := sched_run (threads_of keccak pr jobs s n) js in
  ~ (exists j p, nth_error (threads w) j = Some p /\ panicked p) ->
  ~ (exists j p, nth_error (threads w') j = Some p /\ panicked p) /\
  (forall j r, nth_error (threads w) j = Some (Ret r) <-> nth_error (threads w') j = Some (Ret r)) /\
  cells w = cells w' /\ next_cell w = next_cell w'.
Proof.
  intros keccak pr A jobs s n js w w' H.
  assert (H' : ~ In Fail (threads w)) by (intros I; apply In_nth_error in I as [j I]; apply H; exists j, Fail; split; [exact I|reflexivity]).
  assert (Q : pools_same (threads_of keccak Debug jobs s n) (threads_of keccak pr jobs s n)).
  { split; [|split; reflexivity]. unfold threads_of. cbn [threads]. induction jobs as [|job jobs IH]; constructor; [apply p_hplay|]. clear. induction jobs as [|job jobs IH]; constructor; [apply p_hplay|exact IH]. }
  destruct (sched_same js _ _ Q H') as (F & C & M). fold w in F, C, M. fold w' in F, C, M. split; [|split; [|split; assumption]].
  - intros (j & p & E & ->). pose proof (nth_F2 psame _ _ j F) as R. rewrite E in R. destruct (nth_error (threads w) j) as [q|] eqn:E'; [|exact R].
    inversion R; subst. apply H'. eapply nth_error_In, E'.
  - intros j r. pose proof (nth_F2 psame _ _ j F) as R. split; intros E; rewrite E in R.
    + destruct (nth_error (threads w') j) as [q|]; [|contradiction R]. inversion R; subst. reflexivity.
    + destruct (nth_error (threads w) j) as [q|] eqn:E'; [|contradiction R]. inversion R; subst; [reflexivity|]. exfalso. apply H'. eapply nth_error_In, E'.
Qed.
Print Assumptions C85_threads.

(** * Where there is no difference *)
Lemma eq_ok {A} (x y : res A) : same x y -> x <> Panic -> x = y.
Proof. intros [E|E] N; [contradiction|exact E]. Qed.
Lemma delete_same pr : forall t L k, wf L t -> shape t -> hexl k -> (length k <= 127)%nat -> (L <= 64)%nat -> delete_intern Debug t (enc k) = delete_intern pr t (enc k).
Proof.
  induction t as [|h|ch w IH|n c IH|n w] using node_ind'; intros L k W Sh Hk Lk HL; try reflexivity.
  - inversion W as [| |L0 ? ? Hl F| |]; subst. inversion Sh as [| |? ? FS X| |]; subst. destruct k as [|d k]; [rewrite !delete_branch_nil; reflexivity|].
    assert (Hd : d < 16) by (inversion Hk; assumption). assert (Hk' : hexl k) by (inversion Hk; assumption).
    rewrite !delete_branch_cons by auto. cbn [length] in Lk.
    assert (G : wf L0 (child ch d) /\ shape (child ch d) /\ delete_intern Debug (child ch d) (enc k) = delete_intern pr (child ch d) (enc k)).
    { destruct (child_in ch d) as [Ec|In0]; [rewrite Ec; repeat split; constructor|]. rewrite Forall_forall in IH, F, FS. split; [apply F, In0|]. split; [apply FS, In0|].
      apply (IH _ In0 L0); auto; lia. }
    destruct G as (G1 & G2 & <-). pose proof (delete_spec Debug (child ch d) L0 k G1 G2 Hk' ltac:(lia) ltac:(lia)) as P.
    destruct (delete_intern Debug (child ch d) (enc k)) as [[[c' u]|]|]; cbn [bind]; try reflexivity. destruct (_ && _); [reflexivity|].
    cbn [del_post] in P. destruct P as (_ & _ & P3 & P4 & _). destruct (try_collapse_spec Debug c' L0 P3 ltac:(lia) P4) as (x & E & _).
    rewrite (eq_ok (try_collapse_if_extension Debug c') (try_collapse_if_extension pr c') (s_try_collapse pr c')); [reflexivity|]. congruence.
  - inversion W as [| | |L0 l c0 Hl Wc|]; subst. inversion Sh as [| | |? ? Hn Hb Sc|]; subst. cbn [delete_intern]. rewrite !identical_enc by (assumption || lia). cbn [bind].
    destruct (Nat.leb _ _); [|reflexivity]. rewrite count_enc, !truncate_front_enc by (assumption || lia). cbn [bind].
    assert (Hs : hexl (skipn (length l) k)) by (apply hexl_skipn, Hk). pose proof (skipn_length (length l) k) as Ls.
    rewrite <- (IH L0) by (auto; lia). pose proof (delete_spec Debug c L0 (skipn (length l) k) Wc Sc Hs ltac:(lia) ltac:(lia)) as P.
    destruct (delete_intern Debug c (enc (skipn (length l) k))) as [[[c' u]|]|]; cbn [bind]; try reflexivity. cbn [del_post] in P. destruct P as (_ & _ & P3 & _).
    destruct (node_is_empty c') eqn:Ne; [destruct c'; try discriminate Ne; reflexivity|]. assert (NE : c' <> Empty) by (intros ->; discriminate Ne).
    destruct (collapse_ext_spec Debug l c' L0 Hl P3 NE ltac:(lia)) as (x & E & _).
    rewrite (eq_ok (collapse_ext_node_if_needed Debug (enc l) c') (collapse_ext_node_if_needed pr (enc l) c') (s_collapse pr _ _)); [reflexivity|]. congruence.
Qed.

(** Changing a trie of the API with proper keys and values is the same in all builds, panics included, and so are hashing and iterating over it. So all builds can
    make the same tries. *)
Theorem C85_changes : forall keccak pr t k v, reach pr t -> kwf k -> proper v ->
  trie_insert Debug t k v = trie_insert Release t k v /\
  trie_delete Debug t k = trie_delete Release t k /\
  (hash32 keccak -> fits t -> hash_trie keccak Debug t = hash_trie keccak Release t) /\
  (exists F, forall fuel, (F <= fuel)%nat -> trie_items fuel Debug t = trie_items fuel Release t).
Proof.
  intros keccak pr t k v R Hk Pv. destruct (reach_valid pr t R) as [W Sh]. split; [|split; [|split]].
  - destruct (tinsert Debug t k v W Sh Hk Pv) as [(t' & E & _)|[E B]].
    + apply eq_ok; [apply s_insert|congruence].
    + destruct (tinsert Release t k v W Sh Hk Pv) as [(t' & E' & _ & NB)|[E' _]]; [contradiction|congruence].
  - destruct (kwf_ex k Hk) as (l & El & _ & Hl & Ll). rewrite El. unfold trie_delete. rewrite <- (delete_same Release t 64 l) by (auto; lia).
    pose proof (delete_spec Debug t 64 l W Sh Hl ltac:(lia) ltac:(lia)) as P. destruct (delete_intern Debug t (enc l)) as [[[c' u]|]|]; cbn [bind]; try reflexivity.
    cbn [del_post] in P. destruct P as (_ & _ & P3 & P4 & _). destruct (try_collapse_spec Debug c' 64 P3 ltac:(lia) P4) as (x & E & _).
    rewrite (eq_ok (try_collapse_if_extension Debug c') (try_collapse_if_extension Release c') (s_try_collapse _ c')); [reflexivity|]. congruence.
  - intros K32 F. rewrite !hash_trie_ok by assumption. reflexivity.
  - exists (S (S (nsize t))). intros fuel H. rewrite !items_spec by (auto; lia). reflexivity.
Qed.
Print Assumptions C85_changes.
Theorem C85_reach : forall t, reach Debug t <-> reach Release t.
Proof.
  assert (Q : forall pr pr' t, reach pr t -> reach pr' t).
  { intros pr pr' t R. induction R as [t W C|t k v t' R IH Hk Pv E|t k t' w R IH Hk E].
    - apply reach_start; assumption.
    - apply (reach_insert pr' t k v t' IH Hk Pv). destruct (C85_changes (fun x => x) pr t k v R Hk Pv) as (H & _). destruct pr, pr'; congruence.
    - apply (reach_delete pr' t k t' w IH Hk). destruct (C85_changes (fun x => x) pr t k (HashV []) R Hk Logic.I) as (_ & H & _). destruct pr, pr'; congruence. }
  intros t. split; apply Q.
Qed.
Print Assumptions C85_reach.

(** On canonical tries with proper keys, [get] differs exactly for the keys that end inside an extension. *)
Theorem C85_get : forall t k, wf 64 t -> canon t -> kwf k ->
  (trie_get Debug t k <> trie_get Release t k <-> exists q p, ends_in t (nseq k) q p).
Proof.
  intros t k W C Hk. destruct (kwf_ex k Hk) as (l & El & Es & Hl & Ll). rewrite Es, El.
  destruct (get_exact t 64 l W ltac:(lia) C Hl ltac:(lia)) as [(q & p & A & U & B & D)|(A & B & D)].
  - split; [intros _; exists q, p; exact A|]. intros _. rewrite B, D. discriminate.
  - split; [|intros (q & p & E); contradiction (A q p E)]. intros N. contradiction N. symmetry. exact B.
Qed.
Print Assumptions C85_get.

(** Histories of changes and queries with keys of which none is the start of another are the same in all builds. *)
Theorem C85_histories : forall U ops, prefix_free U -> Forall (op_ok U) ops -> trie_ops Debug Empty ops = trie_ops Release Empty ops.
Proof.
  intros U ops PF F. destruct (C10_prefix_free Debug U ops PF F) as (t & E & H). destruct (C10_prefix_free Release U ops PF F) as (t' & E' & H').
  rewrite E, E'. f_equal. f_equal. eapply C17_histories; eauto.
Qed.
Print Assumptions C85_histories.

(** * The builds are not the same *)
Theorem C85_same_refuted : exists l t k v,
  from_iter Debug l = Ok t /\ from_iter Release l = Ok t /\ kwf k /\
  trie_get Debug t k = Panic /\ trie_get Release t k = Ok (Some v) /\
  val_from_u128 Debug 1 = Panic /\ val_from_u128 Release 1 <> Panic.
Proof.
  exists [(K 2 0x00, Val [1]); (K 3 0x001, Val [2])], (okn (from_iter Release [(K 2 0x00, Val [1]); (K 3 0x001, Val [2])])), (K 1 5), [1].
  split; [vm_compute; reflexivity|]. split; [vm_compute; reflexivity|]. split; [kwf_tac|]. split; [vm_compute; reflexivity|]. split; [vm_compute; reflexivity|].
  split; [vm_compute; reflexivity|]. vm_compute. discriminate.
Qed.
Print Assumptions C85_same_refuted.

(** * Examples *)
(** A program on handles that ends in both builds, and one that panics with checks only. *)
Definition ex_program (k : nibbles) : user (obs * obs) :=
  Call (New [(K 2 0x00, Val [1]); (K 3 0x001, Val [2])]) (fun _ => Call (HashOf 0) (fun h => Call (Get 0 k) (fun x => Return (h, x)))).
Example C85_example :
  (exists r, play (fun x => repeat 7 32) Debug (ex_program (K 2 0x00)) = Ok r /\ play (fun x => repeat 7 32) Release (ex_program (K 2 0x00)) = Ok r) /\
  play (fun x => repeat 7 32) Debug (ex_program (K 1 5)) = Panic /\ play (fun x => repeat 7 32) Release (ex_program (K 1 5)) <> Panic /\
  (exists t, reach Debug t /\ (exists k, kwf k /\ trie_insert Debug t k (Val [1]) = Panic) /\ fits t).
Proof.
  split; [eexists; split; vm_compute; reflexivity|]. split; [vm_compute; reflexivity|]. split; [vm_compute; discriminate|].
  exists ex_hash. destruct ex_hash_ok as (_ & W & C). split; [apply reach_start; assumption|]. split; [exists (K 2 0x31); split; [kwf_tac|vm_compute; reflexivity]|].
  vm_compute. repeat constructor.
Qed.
(** Two threads that share a handle, in an interleaving after which no thread has panicked and one is done. *)
Example C85_threads_example : let w := sched_run (threads_of (fun x => repeat 7 32) Debug [([HLeaf 0 (K 2 0x00) [1]], Call (HashOf 0) (fun h => Return h)); ([HLeaf 0 (K 2 0x00) [1]], Call (HashOf 0) (fun h => Return h))] (fun _ => None) 1) [0; 1; 1]%nat in
  ~ (exists j p, nth_error (threads w) j = Some p /\ panicked p) /\ exists j r, nth_error (threads w) j = Some (Ret r).
Proof.
  split.
  - intros (j & p & E & P). unfold panicked in P. subst p. destruct j as [|[|j]]; vm_compute in E; try discriminate E. destruct j; discriminate E.
  - eexists 0%nat, _. vm_compute. reflexivity.
Qed.
(** Keys of four nibbles, with inserts, deletes and gets; a trie and a key for which [get] differs. *)
Example C85_histories_example : prefix_free (fun k => length k = 4%nat) /\ Forall (op_ok (fun k => length k = 4%nat)) ex_ops /\
  exists t k q p, wf 64 t /\ canon t /\ kwf k /\ ends_in t (nseq k) q p.
Proof.
  split; [apply (fixed_pf 4)|]. split; [eapply Forall_impl; [intros o; apply (fixed_ok 4)|apply C10_example]|].
  destruct C12_exact_example as (t & _ & W & C & E & _). exists t, (K 1 5), [], [0; 0]. split; [exact W|]. split; [exact C|]. split; [kwf_tac|exact E].
Qed.
