(** Properties C24-C26 in Release builds for keys that may end inside an extension node. [keccak] is any function with
    32-byte outputs. *)
From Verif Require Import Base Nibbles NibblesSpec NibblesFacts NibblesFacts2 NibblesFacts3 Trie TrieSpec TrieHistSpec TrieFacts TrieInsert TrieGet TrieDelete TrieUnique TrieIter TrieHist TrieObs InsertWf Rlp YellowPaper Hashing Keccak HashSpec HideSpec HashFacts KeccakFacts HideFacts HideBind Subset SubsetSpec SubsetFacts SubsetFacts2 ReleaseSpec SubsetFacts3 P_Trie P_Hash P_Subset.
Open Scope N_scope.

(** What a filled key is: the key itself, unless it is too short; never too short; and it leads into a hash node exactly
    when the key does. *)
Theorem C24_filled : forall t k, wf 64 t -> kwf k ->
  ~ too_short t (filled t (nseq k)) /\ (~ too_short t (nseq k) -> filled t (nseq k) = nseq k) /\
  (into_hash t (filled t (nseq k)) <-> into_hash t (nseq k)).
Proof.
  intros t k W Hk. split; [|split; [|apply into_hash_filled; assumption]]; destruct (kwf_ex k Hk) as (l & -> & El & Hl & Ll); rewrite El.
  - apply (filled_long t 64); assumption.
  - apply (filled_same t 64); assumption.
Qed.

(** In Release builds the subset is exactly the one for the filled keys, whatever the lengths of the keys, and there is
    one exactly when no key leads into a hash node. *)
Theorem C24_release_exact : forall keccak t ks,
  hash32 keccak -> wf 64 t -> fits t -> Forall kwf ks ->
  (forall k, In k ks -> ~ into_hash t (nseq k)) /\
    create_trie_subset keccak Release t ks = Ok (ROk (prune keccak (map (fun k => filled t (nseq k)) ks) t)) \/
  (exists k, In k ks /\ into_hash t (nseq k)) /\ exists e, create_trie_subset keccak Release t ks = Ok (RErr e).
Proof.
  intros keccak t ks K W F Kw. assert (Kf : Forall kwf (map (fill t) ks)).
  { apply Forall_map. eapply Forall_impl; [|exact Kw]. intros k Hk. apply fill_kwf; assumption. }
  assert (Em : map nseq (map (fill t) ks) = map (fun k => filled t (nseq k)) ks).
  { rewrite map_map. apply map_ext_in. intros k I. apply fill_kwf; [exact W|]. rewrite Forall_forall in Kw. auto. }
  destruct (C25_errors_partial keccak Release t ks K W F Kw (or_introl eq_refl)) as [[A B]|[A [s E]]]; [right; auto|left].
  split; [exact A|]. rewrite E. do 2 f_equal. rewrite <- Em. rewrite subset_fill in E by assumption.
  apply (C24_exact keccak Release t (map (fill t) ks) s K W F Kf); [|exact E]. right.
  intros k I. apply in_map_iff in I. destruct I as (k0 & <- & I). rewrite Forall_forall in Kw. specialize (Kw k0 I).
  destruct (fill_kwf t k0 W Kw) as [_ ->]. apply C24_filled; assumption.
Qed.

(** The same for a batch of lists. *)
Theorem C26_release_exact_partial : forall keccak t kss,
  hash32 keccak -> wf 64 t -> fits t -> Forall (Forall kwf) kss ->
  (forall ks k, In ks kss -> In k ks -> ~ into_hash t (nseq k)) ->
  create_trie_subsets keccak Release t kss = Ok (ROk (prune_each keccak [] (map (map (fun k => filled t (nseq k))) kss) t)).
Proof.
  intros keccak t kss K W F Kw H. unfold create_trie_subsets. rewrite (subsets_fill keccak t kss (track t) W (track_tracks t) Kw).
  fold (create_trie_subsets keccak Release t (map (map (fill t)) kss)).
  assert (Q : forall ks k, In ks kss -> In k ks -> kwf k) by (intros ks k I J; rewrite Forall_forall in Kw; specialize (Kw ks I); rewrite Forall_forall in Kw; auto).
  rewrite C26_exact_partial; auto.
  - do 3 f_equal. rewrite map_map. apply map_ext_in. intros ks I. rewrite map_map. apply map_ext_in. intros k J. apply fill_kwf; eauto.
  - apply Forall_map, Forall_forall. intros ks I. apply Forall_map, Forall_forall. intros k J. apply fill_kwf; eauto.
  - intros ks k I J. apply in_map_iff in I. destruct I as (ks0 & <- & I). apply in_map_iff in J. destruct J as (k0 & <- & J).
    destruct (fill_kwf t k0 W (Q _ _ I J)) as [_ ->]. destruct (C24_filled t k0 W (Q _ _ I J)) as (A & _ & B). split; [|exact A]. rewrite B. eauto.
Qed.

(** A trie whose extension nodes have the pieces [0;0] and [7], asked for keys that end inside both. *)
Definition ex_short : node := okn (from_iter Debug [(K 4 0x0013, Val (big 1)); (K 4 0x0014, Val (big 2)); (K 4 0x0073, Val (big 3)); (K 6 0x007312, Val (big 4)); (K 6 0x007412, Val (big 5))]).
Example C24_short_example :
  from_iter Debug [(K 4 0x0013, Val (big 1)); (K 4 0x0014, Val (big 2)); (K 4 0x0073, Val (big 3)); (K 6 0x007312, Val (big 4)); (K 6 0x007412, Val (big 5))] = Ok ex_short /\
  wf 64 ex_short /\ fits ex_short /\ kwf (K 1 5) /\ filled ex_short (nseq (K 1 5)) = [0; 0] /\
  create_trie_subset keccak256 Release ex_short [K 1 5] = Ok (ROk (prune keccak256 [[0; 0]] ex_short)) /\
  prune keccak256 [[0; 0]] ex_short <> prune keccak256 [[5]] ex_short /\
  create_trie_subset keccak256 Debug ex_short [K 1 5] = Panic.
Proof.
  assert (E : from_iter Debug [(K 4 0x0013, Val (big 1)); (K 4 0x0014, Val (big 2)); (K 4 0x0073, Val (big 3)); (K 6 0x007312, Val (big 4)); (K 6 0x007412, Val (big 5))] = Ok ex_short) by (vm_compute; reflexivity).
  split; [exact E|]. split; [|split; [|split; [kwf_tac|split; [vm_compute; reflexivity|split; [vm_compute; reflexivity|split; [vm_compute; discriminate|vm_compute; reflexivity]]]]]].
  - apply (extend_canon Debug _ Empty) in E; [apply E|constructor|constructor|]. repeat constructor; cbn; try (vm_compute; (reflexivity || (intro; discriminate))).
  - apply (extend_fits Debug _ Empty) in E; [exact E|exact I|]. repeat constructor; cbn; try (vm_compute; (reflexivity || (intro; discriminate))).
Qed.

Print Assumptions C24_filled.
Print Assumptions C24_release_exact.
Print Assumptions C26_release_exact_partial.
