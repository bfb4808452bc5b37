(** Property C49: subsets of subsets. [keccak] is any function with 32-byte outputs. *)
From Verif Require Import Base Nibbles NibblesSpec NibblesFacts NibblesFacts2 NibblesFacts3 Trie TrieSpec TrieHistSpec TrieFacts TrieInsert TrieGet TrieDelete TrieUnique TrieIter TrieHist TrieObs InsertWf Rlp YellowPaper Hashing Keccak HashSpec HideSpec HashFacts KeccakFacts HideFacts HideBind Subset SubsetSpec SubsetFacts SubsetFacts2 ReplayFacts ReleaseSpec SubsetFacts3 ComposeFacts P_Trie P_Hash P_Subset P_Short.
Open Scope N_scope.

Lemma stored_not_short t : forall L k, wf L t -> stored t k -> ~ too_short t k.
Proof.
  induction t as [|h|ch w IH|n c IH|n w] using node_ind'; intros L k W S T; try contradiction.
  - destruct k as [|d k]; [contradiction|]. rewrite stored_branch in S. rewrite too_short_branch in T. inversion W as [| |L0 ? ? Hl F| |]; subst.
    destruct (child_in ch d) as [E0|I0]; [rewrite E0 in T; contradiction|]. rewrite Forall_forall in IH, F. exact (IH _ I0 L0 k (F _ I0) S T).
  - inversion W as [| | |L0 p c0 Hp Wc|]; subst. destruct (stored_ext_inv p _ k Hp S) as (k' & -> & S'). rewrite too_short_ext in T by exact Hp.
    destruct T as [T|(k2 & E & T)]; [rewrite app_length in T; lia|]. apply app_inv_head in E. subst k2. exact (IH L0 k' Wc S' T).
Qed.

(** A subset keeps the way of its keys, so a key is followed in it as in the trie. *)
Lemma prune_filled keccak t : forall L ks k, wf L t -> hexl k -> In (filled t k) ks -> filled (prune keccak ks t) k = filled t k.
Proof.
  induction t as [|h|ch w IH|n c IH|n w] using node_ind'; intros L ks k W Hk I; (destruct ks as [|k0 ks]; [destruct I|]); try reflexivity; set (KS := k0 :: ks) in *.
  - replace (prune keccak KS (Branch ch w)) with (Branch (map_children (fun d c => prune keccak (keys_under d KS) c) ch 0) w) by reflexivity.
    destruct k as [|d k]; [reflexivity|]. inversion W as [| |L0 ? ? Hl F| |]; subst. inversion Hk as [|? ? Hd Hk']; subst.
    rewrite filled_branch in I by assumption. rewrite !filled_branch by (rewrite ?map_children_length; assumption). f_equal.
    assert (En : nth_error ch (N.to_nat d) = Some (child ch d)) by (unfold child; apply nth_error_nth'; lia).
    assert (Ec' : child (map_children (fun d c => prune keccak (keys_under d KS) c) ch 0) d = prune keccak (keys_under d KS) (child ch d)).
    { unfold child at 1. apply nth_error_nth. rewrite (nth_map_children_ _ ch 0 _ _ En). do 2 f_equal. f_equal. lia. }
    rewrite Ec'. rewrite Forall_forall in IH, F. pose proof (nth_error_In _ _ En) as Inc.
    apply (IH _ Inc L0 _ k (F _ Inc) Hk'). apply keys_under_iff. exact I.
  - replace (prune keccak KS (Extension n c)) with (Extension n (prune keccak (keys_below (nseq n) KS) c)) by reflexivity.
    inversion W as [| | |L0 p c0 Hp Wc|]; subst. cbn [filled] in *. rewrite nseq_enc in * by exact Hp.
    destruct (Nat.ltb_spec (length k) (length p)) as [L1|L1].
    + destruct (key_eqb_spec p (repeat 0 (length p))) as [E|E]; [|reflexivity]. f_equal. rewrite <- E in I.
      apply (IH L0 _ [] Wc); [constructor|]. apply keys_below_iff. exact I.
    + destruct (strip p k) as [k'|] eqn:Es; [|reflexivity]. f_equal. apply strip_some in Es. subst k. apply Forall_app in Hk.
      apply (IH L0 _ k' Wc); [apply Hk|]. apply keys_below_iff. exact I.
Qed.

(** Both profiles: there is a subset exactly when no key leads into a hash node and, in Debug builds, none is too short; it is
    the one for the filled keys. *)
Definition key_ok (pr : profile) (t : node) (k : nibbles) : Prop := ~ into_hash t (nseq k) /\ (pr = Debug -> ~ too_short t (nseq k)).
Lemma subset_any keccak pr t ks : hash32 keccak -> wf 64 t -> fits t -> Forall kwf ks ->
  (forall k, In k ks -> key_ok pr t k) -> create_trie_subset keccak pr t ks = Ok (ROk (prune keccak (map (fun k => filled t (nseq k)) ks) t)).
Proof.
  intros K W F Kw H. destruct pr.
  - destruct (C25_errors_partial keccak Debug t ks K W F Kw) as [[(k & Ik & A) _]|[_ (s & Es)]].
    + right. intros k Ik. apply (H k Ik). reflexivity.
    + exfalso. exact (proj1 (H k Ik) A).
    + rewrite Es. do 2 f_equal. rewrite (C24_exact keccak Debug t ks s K W F Kw (or_introl eq_refl) Es). f_equal.
      apply map_ext_in. intros k Ik. rewrite Forall_forall in Kw. symmetry. apply (C24_filled t k W (Kw k Ik)), (H k Ik). reflexivity.
  - destruct (C24_release_exact keccak t ks K W F Kw) as [[_ E]|[(k & Ik & A) _]]; [exact E|]. exfalso. exact (proj1 (H k Ik) A).
Qed.
Lemma subset_any_inv keccak pr t ks s : hash32 keccak -> wf 64 t -> fits t -> Forall kwf ks -> create_trie_subset keccak pr t ks = Ok (ROk s) ->
  (forall k, In k ks -> key_ok pr t k) /\ s = prune keccak (map (fun k => filled t (nseq k)) ks) t.
Proof.
  intros K W F Kw E. assert (G : forall k, In k ks -> key_ok pr t k).
  { destruct (subset_inv _ _ _ _ _ E) as (tr & Em & Ec & T). destruct pr.
    - intros k Ik. destruct (debug_success_fine t ks _ _ W (track_tracks t) Kw Em k Ik). split; auto.
    - intros k Ik. split; [|discriminate]. intros A.
      destruct (mark_all_err Release t ks (track t) W (track_tracks t) Kw) as [e Ee]; [eauto|auto|]. congruence. }
  split; [exact G|]. rewrite (subset_any keccak pr t ks K W F Kw G) in E. congruence.
Qed.

(** A subset can be narrowed without the original trie: taking the subset for some of its keys gives the same trie as taking
    it from the original. *)
Theorem C49_narrow : forall keccak pr t ks1 ks2 s1,
  hash32 keccak -> wf 64 t -> fits t -> Forall kwf ks1 ->
  create_trie_subset keccak pr t ks1 = Ok (ROk s1) -> incl ks2 ks1 ->
  exists s2, create_trie_subset keccak pr t ks2 = Ok (ROk s2) /\ create_trie_subset keccak pr s1 ks2 = Ok (ROk s2).
Proof.
  intros keccak pr t ks1 ks2 s1 K W F Kw E I. destruct (subset_any_inv keccak pr t ks1 s1 K W F Kw E) as [G E1].
  pose proof (subset_hides keccak pr t ks1 s1 K W F E) as H.
  assert (Kw2 : Forall kwf ks2) by (rewrite Forall_forall in *; intros k Ik; apply Kw, I, Ik).
  assert (W1 : wf 64 s1) by (eapply hides_wf; eauto). assert (F1 : fits s1) by (eapply hides_fits; eauto).
  set (q := fun k => filled t (nseq k)) in *.
  assert (Ef : forall k, In k ks2 -> filled s1 (nseq k) = q k).
  { intros k Ik. rewrite E1. rewrite Forall_forall in Kw2. destruct (kwf_ex k (Kw2 k Ik)) as (l & _ & El & Hl & _).
    apply (prune_filled keccak t 64); [exact W|rewrite El; exact Hl|]. apply (in_map q), I, Ik. }
  assert (G1 : forall k, In k ks2 -> key_ok pr s1 k).
  { intros k Ik. destruct (G k (I k Ik)) as [A B]. assert (Hk : kwf k) by (rewrite Forall_forall in Kw2; auto). split.
    - intros C. apply A. apply (C24_filled s1 k W1 Hk) in C. rewrite (Ef k Ik) in C. apply (C24_filled t k W Hk). destruct C as (p & h & El & Pp).
      exists p, h. split; [|exact Pp]. rewrite E1 in El.
      apply (prune_hop keccak t 64 (map q ks1) (q k) p h W); [apply in_map, I, Ik| |exact El|apply strict_is_prefix; exact Pp].
      destruct (kwf_ex k Hk) as (l & _ & El' & Hl & _). unfold q. rewrite El'. apply (filled_wf t 64); assumption.
    - intros D S. apply (B D). eapply too_short_hides; eauto. }
  exists (prune keccak (map q ks2) t). split; [apply subset_any; auto|].
  rewrite (subset_any keccak pr s1 ks2 K W1 F1 Kw2 G1).
  replace (map (fun k => filled s1 (nseq k)) ks2) with (map q ks2) by (apply map_ext_in; intros k Ik; symmetry; auto).
  rewrite E1, prune_prune; [reflexivity|]. apply incl_map. exact I.
Qed.

(** Fewer keys hide more: the smaller subset is the larger one with subtrees replaced by their hashes. *)
Theorem C49_monotone : forall keccak pr t ks1 ks2 s1 s2,
  hash32 keccak -> wf 64 t -> fits t -> Forall kwf ks1 ->
  create_trie_subset keccak pr t ks1 = Ok (ROk s1) -> create_trie_subset keccak pr t ks2 = Ok (ROk s2) -> incl ks2 ks1 ->
  hides keccak s1 s2.
Proof.
  intros keccak pr t ks1 ks2 s1 s2 K W F Kw E1 E2 I. destruct (C49_narrow keccak pr t ks1 ks2 s1 K W F Kw E1 I) as (s & A & B).
  assert (s = s2) by congruence. subst s. pose proof (subset_hides keccak pr t ks1 s1 K W F E1) as H.
  eapply subset_hides; [exact K| | |exact B]; [eapply hides_wf; eauto|eapply hides_fits; eauto].
Qed.

(** The subset for a key list that has all stored keys is the trie itself. *)
Theorem C49_all_keys : forall keccak pr t ks s,
  hash32 keccak -> reach pr t -> fits t -> Forall kwf ks ->
  (forall j, stored t j -> exists k, In k ks /\ nseq k = j) ->
  create_trie_subset keccak pr t ks = Ok (ROk s) -> s = t.
Proof.
  intros keccak pr t ks s K R F Kw A E. destruct (reach_valid pr t R) as [W Sh].
  destruct (subset_any_inv keccak pr t ks s K W F Kw E) as [_ ->]. apply (prune_all keccak t 64); auto.
  intros j Sj. destruct (A j Sj) as (k & Ik & Ek). rewrite Forall_forall in Kw. apply in_map_iff. exists k. split; [|exact Ik].
  rewrite <- Ek. apply (C24_filled t k W (Kw k Ik)). rewrite Ek. apply (stored_not_short t 64); assumption.
Qed.

(** The subset of [ex_big] for 0x5678 and 0x1999, narrowed to 0x5678. *)
Example C49_example :
  wf 64 ex_big /\ fits ex_big /\ create_trie_subset keccak256 Debug ex_big [K 4 0x5678; K 4 0x1999] = Ok (ROk ex_subset) /\
  incl [K 4 0x5678] [K 4 0x5678; K 4 0x1999] /\
  exists s2, create_trie_subset keccak256 Debug ex_subset [K 4 0x5678] = Ok (ROk s2) /\ s2 <> ex_subset.
Proof.
  destruct C22_example as (W & F & E & _). split; [exact W|]. split; [exact F|]. split; [exact E|].
  split; [intros k [<-|[]]; left; reflexivity|].
  exists (oks (create_trie_subset keccak256 Debug ex_subset [K 4 0x5678])). split; [vm_compute; reflexivity|vm_compute; discriminate].
Qed.
(** Release builds, with a key that ends inside an extension node. *)
Example C49_short_example :
  create_trie_subset keccak256 Release ex_short [K 1 5; K 6 0x007412] = Ok (ROk (oks (create_trie_subset keccak256 Release ex_short [K 1 5; K 6 0x007412]))) /\
  create_trie_subset keccak256 Release (oks (create_trie_subset keccak256 Release ex_short [K 1 5; K 6 0x007412])) [K 1 5] = create_trie_subset keccak256 Release ex_short [K 1 5] /\
  create_trie_subset keccak256 Release ex_short [K 1 5] <> create_trie_subset keccak256 Release ex_short [K 1 5; K 6 0x007412] /\ too_short ex_short (nseq (K 1 5)).
Proof. split; [vm_compute; reflexivity|]. split; [vm_compute; reflexivity|]. split; [vm_compute; discriminate|]. vm_compute. left. repeat constructor. Qed.

Print Assumptions C49_narrow.
Print Assumptions C49_monotone.
Print Assumptions C49_all_keys.
