(** Property C67: what iterating over a trie and looking up a key cost. *)
From Coq Require Import String.
From Verif Require Import Query Diff Text TextSpec QuerySpec Trace TraceSpec P_Trace P_TraceBack.
From Verif Require Import Base Nibbles NibblesSpec NibblesFacts NibblesFacts2 NibblesFacts3 Trie TrieSpec TrieHistSpec TrieFacts TrieInsert TrieGet TrieDelete TrieUnique TrieIter TrieHist TrieObs HashSpec Stats StatsSpec StatsFacts SizeFacts IterCost IterCostFacts JsonSpec P_Trie P_Stats P_Size P_Items Base Nibbles Trie.
Open Scope N_scope.
Open Scope list_scope.

(** [counted_items] is [trie_items] with a counter of steps: the rounds of the loop in all calls of [next], from the first to the one that
    returns [None], and the nodes at which they look. *)
Theorem C67_same : forall pr t fuel, snd (counted_items fuel pr t) = trie_items fuel pr t.
Proof. intros pr t fuel. apply ccollect_snd. Qed.

(** Every node is looked at once, and there is one round for the start, one for every place of a branch but the first, one for its value, and
    one for every extension node that does not lead to a hash. This holds for any value of the type whose iteration does not panic. *)
Theorem C67_exact : forall pr t fuel l, node_type t -> trie_items fuel pr t = Some (Ok l) ->
  fst (counted_items fuel pr t) = N.of_nat (length (subnodes 0 t)) + (1 + 16 * how_many is_branch_node t + how_many is_live_extension t).
Proof.
  intros pr t fuel l T E. unfold counted_items. unfold trie_items in E.
  rewrite (ccollect_fst pr fuel fuel (items_iter t) l); [|constructor; [|constructor]; cbn [entry_ok]|exact E].
  - unfold pot, items_iter. cbn [trie_stack map pot1 sum fold_right]. rewrite <- total_counts. unfold how_many, c_of.
    assert (A : filter (fun _ : N * node => true) (subnodes 0 t) = subnodes 0 t) by (clear; induction (subnodes 0 t) as [|x y IH]; [reflexivity|]; cbn [filter]; rewrite IH; reflexivity).
    rewrite A. lia.
  - clear - T. induction T as [|h H|ch v L F IH V|n c H T IH|n v H V]; constructor; try assumption. apply Forall_forall. exact IH.
Qed.

Lemma all_nodes t L : wf L t -> (c_of (fun _ => true) t = 1 + 16 * c_of is_branch_node t + c_of is_extension_node t)%nat.
Proof.
  revert L. induction t as [|h|ch w IH|n c IH|n w] using node_ind'; intros L W; try reflexivity.
  - rewrite !c_branch by (intros a b x; reflexivity). cbn [is_branch_node is_extension_node snd]. inversion W as [|?|L' ? ? L16 F|?|?]; subst.
    assert (G : (list_sum (map (c_of (fun _ => true)) ch) = length ch + 16 * list_sum (map (c_of is_branch_node) ch) + list_sum (map (c_of is_extension_node) ch))%nat); [|lia].
    clear - IH F. induction ch as [|c ch I]; [reflexivity|]. cbn [map]. inversion IH; inversion F; subst. unfold list_sum in *. cbn [fold_right length]. specialize (I ltac:(assumption) ltac:(assumption)).
    rewrite (H1 L') by assumption. lia.
  - rewrite !c_ext by (intros a b x; reflexivity). cbn [is_branch_node is_extension_node snd]. inversion W; subst. rewrite (IH L0) by assumption. lia.
Qed.
Lemma live_le t : (c_of is_live_extension t <= c_of is_extension_node t)%nat.
Proof.
  unfold c_of. induction (subnodes 0 t) as [|[d x] l IH]; [reflexivity|]. destruct x as [|h|ch v|n [| | | |]|n v]; cbn [filter is_live_extension is_extension_node snd length]; lia.
Qed.

Lemma canon_linear pr t fuel : wf 64 t -> canon t -> (nsize t + 1 < fuel)%nat ->
  fst (counted_items fuel pr t) <= 2 + 36 * N.of_nat (length (entries t)).
Proof.
  intros W C F.
  unfold counted_items. rewrite (ccollect_fst pr fuel fuel (items_iter t) (map item_of (entries t))).
  2:{ constructor; [|constructor]. exact (wf_arity _ _ W). }
  2:{ apply items_spec; [exact W|apply canon_shape; exact C|exact F]. }
  unfold pot, items_iter. cbn [trie_stack map pot1 sum fold_right]. rewrite <- total_counts, (all_nodes t _ W). pose proof (live_le t) as X.
  destruct (node_is_empty t) eqn:Z; [destruct t; try discriminate; vm_compute; discriminate|].
  assert (NE : t <> Empty) by (intros ->; discriminate). pose proof (C50_nodes t C NE) as Q. cbv zeta in Q. unfold how_many, c_of in *. lia.
Qed.

(** So the whole iteration over a trie takes time linear in the number of items that it gives: at most 36 steps for each, and two.
    For tries that were built by inserting any entries ... *)
Theorem C67_inserted : forall pr pr' l t fuel, Forall (fun e => kwf (fst e) /\ proper (snd e)) l -> from_iter pr' l = Ok t -> (nsize t + 1 < fuel)%nat ->
  exists items, trie_items fuel pr t = Some (Ok items) /\ fst (counted_items fuel pr t) <= 2 + 36 * N.of_nat (length items).
Proof.
  intros pr pr' l t fuel F E Hf. destruct (extend_canon pr' l Empty t ltac:(constructor) ltac:(constructor) F E) as [W C].
  exists (map item_of (entries t)). split; [apply items_spec; [exact W|apply canon_shape; exact C|exact Hf]|]. rewrite map_length.
  exact (canon_linear pr t fuel W C Hf).
Qed.

(** ... or by any operations over prefix-free keys, deletes included. *)
Theorem C67_history : forall pr pr' U ops t outs fuel, prefix_free U -> Forall (op_ok U) ops -> trie_ops pr' Empty ops = Ok (t, outs) -> (nsize t + 1 < fuel)%nat ->
  exists items, trie_items fuel pr t = Some (Ok items) /\ fst (counted_items fuel pr t) <= 2 + 36 * N.of_nat (length items).
Proof.
  intros pr pr' U ops t outs fuel PF F E Hf. destruct (inv_ops pr' U ops Empty kv_empty PF (inv_empty _) F) as (t1 & E1 & (W & C & H & _)).
  assert (t1 = t) by congruence. subst t1.
  exists (map item_of (entries t)). split; [apply items_spec; [exact W|apply canon_shape; exact C|exact Hf]|]. rewrite map_length.
  exact (canon_linear pr t fuel W C Hf).
Qed.

Lemma n_entries_pos t : shape t -> t <> Empty -> (1 <= n_entries t)%nat.
Proof.
  induction t as [|h|ch w IH|n c IH|n w] using node_ind'; intros S NE; try congruence; try (cbn; lia).
  - inversion S as [|?|? ? Fs (c & I & Nc)|?|?]; subst. unfold n_entries. rewrite !c_branch by (intros a b x; reflexivity). cbn [is_leaf_node is_hash_node snd].
    rewrite Forall_forall in IH, Fs. specialize (IH c I (Fs c I) Nc).
    assert (Q : (n_entries c <= list_sum (map n_entries ch))%nat).
    { clear - I. induction ch as [|x ch IH]; [contradiction|]. cbn [map list_sum fold_right]. change (fold_right Nat.add 0%nat) with list_sum. destruct I as [->|I]; [lia|]. specialize (IH I). lia. }
    unfold n_entries in Q at 2. rewrite !sum_plus in Q. lia.
  - inversion S as [|?|?|? ? _ B S'|?]; subst. specialize (IH S' ltac:(intros ->; exact B)). unfold n_entries in *. rewrite !c_ext by (intros a b x; reflexivity). lia.
Qed.
Lemma branches_levels t L : wf L t -> shape t -> (c_of is_branch_node t <= L * n_entries t)%nat.
Proof.
  revert L. induction t as [|h|ch w IH|n c IH|n w] using node_ind'; intros L W S; try (cbn; lia).
  - pose proof (n_entries_pos _ S ltac:(discriminate)) as P. inversion W as [|?|L' ? ? L16 F|?|?]; subst. inversion S as [|?|? ? Fs _|?|?]; subst.
    assert (Q : (list_sum (map (c_of is_branch_node) ch) <= list_sum (map (fun c => L' * n_entries c)%nat ch))%nat).
    { apply sum_le. intros c I. rewrite Forall_forall in IH, F, Fs. apply (IH c I L'); auto. }
    assert (M : list_sum (map (fun c => L' * n_entries c)%nat ch) = (L' * list_sum (map n_entries ch))%nat).
    { clear. induction ch as [|x ch IH]; cbn [map list_sum fold_right]; [lia|]. change (fold_right Nat.add 0%nat) with list_sum. rewrite IH. lia. }
    assert (G : (list_sum (map n_entries ch) <= n_entries (Branch ch w))%nat).
    { unfold n_entries at 2. rewrite !c_branch by (intros a b x; reflexivity). cbn [is_leaf_node is_hash_node snd]. unfold n_entries. rewrite !sum_plus. lia. }
    rewrite c_branch by (intros a b x; reflexivity). cbn [is_branch_node snd]. nia.
  - inversion W; subst. inversion S as [|?|?|? ? _ B S'|?]; subst. specialize (IH L0 ltac:(assumption) S'). unfold n_entries in *. rewrite !c_ext by (intros a b x; reflexivity).
    cbn [is_branch_node is_leaf_node is_hash_node is_valued_branch snd]. nia.
Qed.

(** For every trie that can be built, also after deletes that leave branches with one child behind: linear in the items, with a factor for
    the at most 64 levels. *)
Theorem C67_any : forall pr pr' t fuel, reach pr' t -> (nsize t + 1 < fuel)%nat ->
  exists items, trie_items fuel pr t = Some (Ok items) /\ fst (counted_items fuel pr t) <= 2 + 2178 * N.of_nat (length items).
Proof.
  intros pr pr' t fuel R Hf. destruct (reach_valid pr' t R) as [W S]. assert (E : trie_items fuel pr t = Some (Ok (map item_of (entries t)))) by (apply items_spec; assumption).
  exists (map item_of (entries t)). split; [exact E|]. rewrite map_length. unfold counted_items. rewrite (ccollect_fst pr fuel fuel (items_iter t) _ ltac:(constructor; [exact (wf_arity _ _ W)|constructor]) E).
  unfold pot, items_iter. cbn [trie_stack map pot1 sum fold_right]. rewrite <- total_counts, (all_nodes t _ W). pose proof (live_le t) as X.
  pose proof (branches_levels t 64 W S) as B. assert (Y : (c_of is_extension_node t <= c_of is_branch_node t + c_of is_hash_node t)%nat) by (pose proof (extensions_below t S); lia).
  assert (En : length (entries t) = n_entries t) by apply entries_count. assert (Hn : (c_of is_hash_node t <= n_entries t)%nat) by (unfold n_entries; lia).
  unfold ent. rewrite En. lia.
Qed.

Lemma wf_height t L : wf L t -> shape t -> height t <= N.of_nat L + 1.
Proof.
  revert L. induction t as [|h|ch w IH|n c IH|n w] using node_ind'; intros L W S; cbn [height]; try lia.
  - inversion W as [|?|L' ? ? L16 F|?|?]; subst. inversion S as [|?|? ? Fs _|?|?]; subst.
    assert (G : fold_right N.max 0 (map height ch) <= N.of_nat L' + 1); [|lia].
    clear - IH F Fs. induction ch as [|c ch I]; cbn [map fold_right]; [lia|]. inversion IH; inversion F; inversion Fs; subst. specialize (I ltac:(assumption) ltac:(assumption) ltac:(assumption)).
    specialize (H1 L' ltac:(assumption) ltac:(assumption)). lia.
  - inversion W; subst. inversion S as [|?|?|? ? NE _ S'|?]; subst. rewrite nseq_enc in NE by assumption. destruct l as [|x l]; [congruence|].
    specialize (IH L0 ltac:(assumption) S'). cbn [length]. lia.
Qed.

(** The stack of the iterator never has more entries than the trie has levels (one for the empty trie); so never more than 65. *)
Theorem C67_memory : forall pr pr' t n st, reach pr' t -> after_rounds n pr (items_iter t) = Some st ->
  N.of_nat (length (trie_stack st)) <= N.max 1 (height t) /\ (length (trie_stack st) <= 65)%nat.
Proof.
  intros pr pr' t n st R E. destruct (reach_valid pr' t R) as [W S]. pose proof (wf_height t 64 W S) as H.
  assert (Q : room (N.max 1 (height t)) (trie_stack st)).
  { apply (rounds_room pr _ n (items_iter t) st); [|exact E]. cbn [items_iter trie_stack room room1 length]. split; [lia|exact Logic.I]. }
  assert (G : N.of_nat (length (trie_stack st)) <= N.max 1 (height t)); [|split; [exact G|lia]].
  destruct (trie_stack st) as [|e rest]; [cbn; lia|]. cbn [room length] in *. destruct Q as [Q _].
  assert (1 <= room1 e) by (destruct e; cbn [room1]; lia). lia.
Qed.

Lemma trail_len t L k : wf L t -> shape t -> hexl k -> (length (trail t k) <= length k + 1)%nat.
Proof.
  revert L k. induction t as [|h|ch w IH|n c IH|n w] using node_ind'; intros L k W S Hk; cbn [trail length]; try lia.
  - destruct k as [|d k]; [cbn; lia|]. inversion W as [|?|L' ? ? L16 F|?|?]; subst. inversion S as [|?|? ? Fs _|?|?]; subst. inversion Hk; subst.
    rewrite at_child_nth. destruct (nth_error ch (N.to_nat d)) as [c|] eqn:N; [|cbn; lia]. pose proof (nth_error_In _ _ N) as I.
    rewrite Forall_forall in IH, F, Fs. specialize (IH c I L' k (F c I) (Fs c I) ltac:(assumption)). cbn [length]. lia.
  - inversion W; subst. inversion S as [|?|?|? ? NE _ S'|?]; subst. rewrite nseq_enc in * by assumption.
    destruct (strip l k) as [k'|] eqn:Sk; [|cbn; lia]. apply strip_some in Sk. subst k. apply Forall_app in Hk. destruct Hk as [_ Hk].
    destruct l as [|x l]; [congruence|]. specialize (IH L0 k' ltac:(assumption) S' Hk). rewrite app_length. cbn [length]. lia.
Qed.

(** get, insert and delete look at one node for each nibble of the key at most, and one more; every line that they can log is about one
    such node, down or (for delete) up, besides one line at the start (and for delete one at the end). *)
Theorem C67_lookup : forall pr pr' t k, reach pr' t -> kwf k ->
  (length (trail t (nseq k)) <= N.to_nat (count k) + 1)%nat /\
  (covers t (nseq k) ->
   (length (fst (lget true pr t k)) <= N.to_nat (count k) + 1)%nat /\
   (forall v, length (fst (linsert true pr t k v)) <= N.to_nat (count k) + 2)%nat /\
   (forall t' v, trie_delete pr t k = Ok (t', Some v) -> length (fst (ldelete true pr t k)) <= 2 * N.to_nat (count k) + 4)%nat).
Proof.
  intros pr pr' t k R Hk. destruct (reach_valid pr' t R) as [W S]. destruct (kwf_ex k Hk) as (l & El & Es & Hl & Ll).
  assert (Lk : length (nseq k) = N.to_nat (count k)) by (rewrite Es, El; cbn; lia).
  pose proof (trail_len t 64 (nseq k) W S ltac:(rewrite Es; exact Hl)) as T. rewrite Lk in T. split; [exact T|]. intros C.
  destruct (C54_delete_count pr t k W S Hk C) as (D & I & G). split; [lia|]. split; [intros v; specialize (I v); lia|].
  intros t' v E. specialize (D t' v E). lia.
Qed.

(** Six entries, the last one a hash below an extension node: 68 nodes (most of them empty places) and 67 rounds. *)
Example C67_example : reach Debug ex_hash /\ (nsize ex_hash + 1 < 200)%nat /\ length (entries ex_hash) = 6%nat /\
  (how_many is_branch_node ex_hash, how_many is_extension_node ex_hash, how_many is_live_extension ex_hash, fst (counted_items 200 Debug ex_hash), height ex_hash) = (4, 3, 2, 135, 5).
Proof.
  split; [apply reach_ex|]. split; [apply Nat.ltb_lt; vm_compute; reflexivity|]. split; vm_compute; reflexivity.
Qed.

Print Assumptions C67_same.
Print Assumptions C67_exact.
Print Assumptions C67_inserted.
Print Assumptions C67_history.
Print Assumptions C67_any.
Print Assumptions C67_memory.
Print Assumptions C67_lookup.
