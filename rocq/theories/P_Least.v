(** Property C78: a subset is the smallest excerpt with its root hash in which the requested keys are not cut off. *)
From Verif Require Import Base Nibbles NibblesSpec NibblesFacts NibblesFacts2 NibblesFacts3 Trie TrieSpec TrieHistSpec TrieFacts TrieInsert TrieGet TrieDelete TrieUnique TrieIter TrieHist TrieObs InsertWf Rlp YellowPaper Hashing Keccak HashSpec HideSpec HashFacts KeccakFacts HideFacts HideBind Subset SubsetSpec SubsetFacts SubsetFacts2 ReplaySpec ReplayFacts ReleaseSpec SubsetFacts3 ComposeFacts SmallFacts LeastSpec LeastFacts P_Trie P_Hash P_Subset P_Short P_Compose P_Small P_Replay.
Open Scope N_scope.

(** Among the partial tries of [t] (which may itself be partial) that do not cut off a requested key more than [t] does, the
    subset is the one that hides most. It can be taken from each of them. *)
Theorem C78_least : forall keccak pr t t' ks s,
  hash32 keccak -> wf 64 t -> shape t -> fits t -> Forall kwf ks -> hides keccak t t' ->
  (pr = Debug \/ forall k, In k ks -> ~ too_short t (nseq k)) ->
  (forall k p h, In k ks -> lk t' p = Some (HashV h) -> is_prefix p (nseq k) -> lk t p = Some (HashV h)) ->
  create_trie_subset keccak pr t ks = Ok (ROk s) ->
  create_trie_subset keccak pr t' ks = Ok (ROk s) /\ hides keccak t' s /\ node_count s <= node_count t'.
Proof.
  intros keccak pr t t' ks s K W Sh F Kw H P U E. pose proof (hides_wf _ _ _ _ H W) as W'. pose proof (hides_fits _ K _ _ H F) as F'.
  destruct (subset_any_inv keccak pr t ks s K W F Kw E) as [G Es].
  assert (NS : forall k, In k ks -> ~ too_short t (nseq k)).
  { intros k Ik. destruct P as [->|P]; [apply (G k Ik); reflexivity|auto]. }
  assert (NS' : forall k, In k ks -> ~ too_short t' (nseq k)).
  { intros k Ik Q. apply (NS k Ik). eapply too_short_hides; eauto. }
  assert (Ef : forall t0, wf 64 t0 -> (forall k, In k ks -> ~ too_short t0 (nseq k)) -> map (fun k => filled t0 (nseq k)) ks = map nseq ks).
  { intros t0 W0 N0. apply map_ext_in. intros k Ik. rewrite Forall_forall in Kw. apply (C24_filled t0 k W0 (Kw k Ik)), (N0 k Ik). }
  rewrite (Ef t W NS) in Es.
  assert (Same : prune keccak (map nseq ks) t' = s).
  { rewrite Es. apply prune_uncut; [exact Sh|exact H|]. intros k p h I L Q. apply in_map_iff in I. destruct I as (n & <- & I). exact (U n p h I L Q). }
  split; [|split].
  - rewrite (subset_any keccak pr t' ks K W' F' Kw).
    + rewrite (Ef t' W' NS'), Same. reflexivity.
    + intros k Ik. split; [|auto]. intros (p & h & L & Q). apply (proj1 (G k Ik)). exists p, h. split; [|exact Q].
      apply (U k p h Ik L). apply strict_is_prefix, Q.
  - rewrite <- Same. apply prune_hides.
  - rewrite <- Same. apply (hides_size keccak), prune_hides.
Qed.
Print Assumptions C78_least.

(** The same in every build and with keys that end inside an extension node: what must not be cut off is then the key that
    the build follows. *)
Theorem C78_followed : forall keccak pr t t' ks s,
  hash32 keccak -> wf 64 t -> shape t -> fits t -> Forall kwf ks -> hides keccak t t' ->
  (forall k p h, In k ks -> lk t' p = Some (HashV h) -> is_prefix p (filled t (nseq k)) -> lk t p = Some (HashV h)) ->
  create_trie_subset keccak pr t ks = Ok (ROk s) ->
  create_trie_subset keccak pr t' ks = Ok (ROk s) /\ hides keccak t' s /\ node_count s <= node_count t'.
Proof.
  intros keccak pr t t' ks s K W Sh F Kw H U E. pose proof (hides_wf _ _ _ _ H W) as W'. pose proof (hides_fits _ K _ _ H F) as F'.
  destruct (subset_any_inv keccak pr t ks s K W F Kw E) as [G Es].
  assert (Fl : forall k, In k ks -> filled t' (nseq k) = filled t (nseq k)).
  { intros k Ik. apply (filled_hides keccak); [exact Sh|exact H|]. intros p h L Q. exact (U k p h Ik L Q). }
  assert (Same : prune keccak (map (fun k => filled t' (nseq k)) ks) t' = s).
  { rewrite (map_ext_in _ _ _ Fl), Es. apply prune_uncut; [exact Sh|exact H|]. intros k p h I L Q. apply in_map_iff in I. destruct I as (n & <- & I). exact (U n p h I L Q). }
  split; [|split].
  - rewrite (subset_any keccak pr t' ks K W' F' Kw).
    + rewrite Same. reflexivity.
    + intros k Ik. destruct (G k Ik) as [G1 G2]. split.
      * intros A. apply G1. assert (Kk : kwf k) by (rewrite Forall_forall in Kw; auto). apply (into_hash_filled t' k W' Kk) in A. rewrite (Fl k Ik) in A.
        apply (into_hash_filled t k W Kk). destruct A as (p & h & L & Q). exists p, h. split; [|exact Q]. apply (U k p h Ik L). apply strict_is_prefix, Q.
      * intros D Q. apply (G2 D). eapply too_short_hides; eauto.
  - rewrite <- Same. apply prune_hides.
  - rewrite <- Same. apply (hides_size keccak), prune_hides.
Qed.
Print Assumptions C78_followed.

(** Any trie with the root hash of the complete trie [t] that does not cut off a requested key contains the subset. *)
Theorem C78_any : forall keccak pr t t' ks s,
  hash32 keccak -> wf 64 t -> shape t -> fits t -> hash_free t -> wf 64 t' -> fits t' -> ks <> [] -> Forall kwf ks ->
  (pr = Debug \/ forall k, In k ks -> ~ too_short t (nseq k)) ->
  hash_trie keccak pr t' = hash_trie keccak pr t -> (forall k, In k ks -> ~ cut_off t' (nseq k)) ->
  create_trie_subset keccak pr t ks = Ok (ROk s) ->
  (create_trie_subset keccak pr t' ks = Ok (ROk s) /\ hides keccak t' s /\ node_count s <= node_count t') \/
  collision keccak (encodings keccak t) (encodings keccak t').
Proof.
  intros keccak pr t t' ks s K W Sh F HF W' F' Ne Kw P R U E.
  destruct (C40_partial_trie_binding keccak pr pr t t' K W W' F F' HF (eq_sym R)) as [H|[[_ ->]|Co]]; [left|exfalso|auto].
  - apply (C78_least keccak pr t t' ks s); auto. intros k p h I L Q. exfalso. apply (U k I). exists p, h. auto.
  - destruct ks as [|k ks]; [congruence|]. apply (U k (or_introl eq_refl)). exists [], (root keccak t). split; [reflexivity|exists (nseq k); reflexivity].
Qed.
Print Assumptions C78_any.

(** With keys of one length: any trie with the root hash of [t] in which get finds the values of all requested keys contains
    the subset for them, and one in which an insert with each of them is possible as well. *)
Theorem C78_values : forall keccak pr n t t' ks s,
  hash32 keccak -> fixed_trie n t -> fits t -> hash_free t -> wf 64 t' -> fits t' -> ks <> [] ->
  Forall kwf ks -> (forall k, In k ks -> length (nseq k) = n) ->
  hash_trie keccak pr t' = hash_trie keccak pr t ->
  (forall k, In k ks -> (exists v, trie_get pr t' k = Ok (Some v)) \/ (exists v, v <> [] /\ trie_insert pr t' k (Val v) <> Panic)) ->
  create_trie_subset keccak pr t ks = Ok (ROk s) ->
  (create_trie_subset keccak pr t' ks = Ok (ROk s) /\ hides keccak t' s /\ node_count s <= node_count t') \/
  collision keccak (encodings keccak t) (encodings keccak t').
Proof.
  intros keccak pr n t t' ks s K Fx F HF W' F' Ne Kw Kn R G E. pose proof Fx as (W & C & _).
  assert (NS : forall k, In k ks -> ~ too_short t (nseq k)).
  { intros k Ik Q. destruct (fixed_not_short t 64 (nseq k) (canon_shape _ C) W Q) as (j & Sj & Lj). apply (fixed_stored n _ _ Fx) in Sj. specialize (Kn k Ik). lia. }
  destruct (C40_partial_trie_binding keccak pr pr t t' K W W' F F' HF (eq_sym R)) as [H|[[_ ->]|Co]]; [left|exfalso|auto].
  - pose proof (fixed_hides keccak n _ _ Fx H) as Fx'.
    apply (C78_least keccak pr t t' ks s); auto; [apply canon_shape, C|]. intros k p h I L Q. exfalso. rewrite Forall_forall in Kw.
    destruct (G k I) as [[v Ev]|(v & Nv & Ev)].
    + rewrite (fixed_get n pr t' k Fx' (Kw k I) (Kn k I)) in Ev. destruct Q as [r Er]. destruct r as [|x r].
      * rewrite app_nil_r in Er. rewrite Er, L in Ev. discriminate.
      * rewrite Er, (below_hash t' 64 p h (x :: r) W' L) in Ev by discriminate. discriminate.
    + destruct (fixed_insert n pr t' k v Fx' (Kw k I) (Kn k I) Nv) as [[_ Z]|[Z _]]; [congruence|]. apply Z. exists p, h. auto.
  - destruct ks as [|k ks]; [congruence|]. destruct (G k (or_introl eq_refl)) as [[v Ev]|(v & _ & Ev)]; [discriminate|]. apply Ev. reflexivity.
Qed.
Print Assumptions C78_values.

(** Nothing more can be hidden: a partial trie of the subset that does not cut off a requested key more is the subset. *)
Theorem C78_nothing_more : forall keccak pr t ks s t',
  hash32 keccak -> wf 64 t -> shape t -> fits t -> Forall kwf ks ->
  (pr = Debug \/ forall k, In k ks -> ~ too_short t (nseq k)) ->
  create_trie_subset keccak pr t ks = Ok (ROk s) -> hides keccak s t' ->
  (forall k p h, In k ks -> lk t' p = Some (HashV h) -> is_prefix p (nseq k) -> lk t p = Some (HashV h)) -> t' = s.
Proof.
  intros keccak pr t ks s t' K W Sh F Kw P E H U. pose proof (subset_hides keccak pr t ks s K W F E) as Hs.
  destruct (C78_least keccak pr t t' ks s K W Sh F Kw (hides_trans keccak _ _ _ Hs H) P U E) as (_ & Q & _).
  apply (hides_antisym keccak); assumption.
Qed.
Print Assumptions C78_nothing_more.

(** [ex_big], its subset for two keys, and the smaller one for one of them. *)
Example C78_example : hash32 keccak256 /\ fixed_trie 4 ex_big /\ fits ex_big /\ hash_free ex_big /\ wf 64 ex_subset /\ fits ex_subset /\
  hash_trie keccak256 Debug ex_subset = hash_trie keccak256 Debug ex_big /\ ~ cut_off ex_subset (nseq (K 4 0x5678)) /\
  (exists v, trie_get Debug ex_subset (K 4 0x5678) = Ok (Some v)) /\
  exists s, create_trie_subset keccak256 Debug ex_big [K 4 0x5678] = Ok (ROk s) /\ s <> ex_subset /\ ex_subset <> ex_big.
Proof.
  destruct C22_example as (W & F & E & _). pose proof (subset_hides keccak256 Debug ex_big P_Subset.ex_keys ex_subset keccak256_32 W F E) as H.
  split; [exact keccak256_32|]. split; [exact ex_big_fixed|]. split; [exact F|]. split; [apply entries_hash_free; vm_compute; repeat constructor|].
  split; [eapply hides_wf; eauto|]. split; [eapply hides_fits; eauto using keccak256_32|]. split; [vm_compute; reflexivity|].
  split; [|split; [eexists; vm_compute; reflexivity|]].
  - intros (p & h & L & [r Er]). change (nseq (K 4 0x5678)) with [5; 6; 7; 8] in Er.
    repeat (destruct p as [|? p]; [vm_compute in L; discriminate L|cbn [app] in Er; injection Er as <- Er || discriminate Er]).
  - exists (oks (create_trie_subset keccak256 Debug ex_big [K 4 0x5678])). split; [vm_compute; reflexivity|]. split; vm_compute; discriminate.
Qed.

(** A key that ends inside an extension node: [ex_short], its subset for two keys, and the smaller one for the key 5. *)
Example C78_short_example : wf 64 ex_short /\ shape ex_short /\ fits ex_short /\ too_short ex_short (nseq (K 1 5)) /\
  let t' := oks (create_trie_subset keccak256 Release ex_short [K 1 5; K 4 0x0013]) in
  hides keccak256 ex_short t' /\ t' <> ex_short /\
  (forall p h, lk t' p = Some (HashV h) -> is_prefix p (filled ex_short (nseq (K 1 5))) -> lk ex_short p = Some (HashV h)) /\
  exists s, create_trie_subset keccak256 Release ex_short [K 1 5] = Ok (ROk s) /\ s <> t'.
Proof.
  destruct C24_short_example as (E & W & F & _). split; [exact W|]. split.
  { apply canon_shape. apply (extend_canon Debug _ Empty ex_short) in E; [exact (proj2 E)|constructor|constructor|].
    repeat constructor; cbn; try (vm_compute; (reflexivity || (intro; discriminate))). }
  split; [exact F|]. split.
  { vm_compute. left. repeat constructor. }
  cbv zeta. assert (Es : create_trie_subset keccak256 Release ex_short [K 1 5; K 4 0x0013] = Ok (ROk (oks (create_trie_subset keccak256 Release ex_short [K 1 5; K 4 0x0013])))) by (vm_compute; reflexivity).
  split; [exact (subset_hides keccak256 Release ex_short _ _ keccak256_32 W F Es)|]. split; [vm_compute; discriminate|]. split.
  - intros p h L [r Er]. change (filled ex_short (nseq (K 1 5))) with [0; 0] in Er.
    repeat (destruct p as [|? p]; [vm_compute in L; discriminate L|cbn [app] in Er; injection Er as <- Er || discriminate Er]).
  - exists (oks (create_trie_subset keccak256 Release ex_short [K 1 5])). split; [vm_compute; reflexivity|vm_compute; discriminate].
Qed.
