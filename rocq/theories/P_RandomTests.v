(** Property C73: the tests of the repository with random keys and values, for every outcome of the generators. *)
From Verif Require Import Base Nibbles NibblesSpec NibblesFacts NibblesFacts2 NibblesFacts3 Trie TrieSpec TrieHistSpec TrieFacts TrieInsert TrieGet TrieDelete TrieUnique TrieIter TrieHist TrieObs
  Hashing YellowPaper HashSpec HideSpec HashFacts HideFacts RlpFacts TextFacts OrderSpec OrderFacts OrderExact P_Trie P_Hash P_Order Cache CacheSpec P_Cache EthSpec EthFacts Keccak UserSpec
  RandomTests RandomFacts RandomFacts2 RandomFacts3 RandomFacts4 RandomFacts5 RandomFacts6 RandomFacts7 RandomFacts8.
Open Scope N_scope.

(** ** What the generators give *)
Theorem C73_keys : forall k,
  (fixed_key k -> kwf k /\ count k = 64) /\ (variable_key k -> kwf k) /\ (padded_key k -> kwf k /\ N.even (count k) = true).
Proof. intros k. split; [apply fixed_ok|]. split; [apply variable_kwf|apply padded_ok]. Qed.
Print Assumptions C73_keys.
(** Exactly the keys that can be drawn: numbers of 256 bits with as many nibbles as they have hex digits; with padding one more if that is odd; of fixed length those
    with 64 digits, up to the highest value of the upper word, which is excluded. *)
Theorem C73_key_ranges : forall k,
  (fixed_key k <-> count k = 64 /\ 2 ^ 252 <= packed k < 2 ^ 192 * (2 ^ 64 - 1)) /\
  (variable_key k <-> packed k < 2 ^ 256 /\ hex_length (packed k) (count k)) /\
  (padded_key k <-> packed k < 2 ^ 256 /\ exists c, hex_length (packed k) c /\ count k = c + c mod 2).
Proof. intros k. split; [apply fixed_shape|]. split; [apply variable_shape|apply padded_shape]. Qed.
Example C73_key_ranges_example : hex_length 0x1ab 3 /\ hex_length 0 0 /\ (2 ^ 252 <= packed (Nib 64 (2 ^ 255)) < 2 ^ 192 * (2 ^ 64 - 1)).
Proof. split; [split; [reflexivity|right; discriminate]|]. split; [split; [reflexivity|left; reflexivity]|]. split; [vm_compute; discriminate|vm_compute; reflexivity]. Qed.
Print Assumptions C73_key_ranges.

Lemma fixed_prefix_free es : drawn fixed_key es -> prefix_free (fun j => In j (keys es)).
Proof.
  intros D a b Ia Ib (x & r & ->). pose proof (fixed_length es D) as F. rewrite Forall_forall in F. pose proof (F _ Ia). pose proof (F _ Ib). rewrite app_length in *. cbn [length] in *. lia.
Qed.
Lemma variable_ok es : drawn variable_key es -> Forall ok_entry es.
Proof. apply drawn_ok, variable_kwf. Qed.
Lemma drawn_valued (key : nibbles -> Prop) es : (forall k, key k -> kwf k) -> drawn key es -> Forall valued es.
Proof.
  intros H D. apply Forall_forall. intros e I. split; [apply (proj1 (Forall_forall _ _) (drawn_ok key es H D) _ I)|apply (proj1 (Forall_forall _ _) (drawn_bytes key es D) _ I)].
Qed.
Lemma drawn_good (key : nibbles -> Prop) es : (forall k, key k -> kwf k /\ N.even (count k) = true) -> drawn key es -> Forall good es.
Proof.
  intros H D. apply Forall_forall. intros e I. split; [apply (proj1 (Forall_forall _ _) (drawn_ok key es (fun k X => proj1 (H k X)) D) _ I)|].
  split; [apply (proj1 (Forall_forall _ _) (drawn_bytes key es D) _ I)|]. apply H, (proj1 (Forall_forall _ _) D _ I).
Qed.
Lemma fixed_even k : fixed_key k -> kwf k /\ N.even (count k) = true.
Proof. intros H. apply fixed_ok in H. destruct H as [A B]. rewrite B. auto. Qed.

(** ** Insertion (trie_ops.rs:879-920) *)
(** Fixed-size keys: the test passes unless the same key is drawn with two values. *)
Theorem C73_inserts_fixed : forall pr es, drawn fixed_key es -> (passes (mass_inserts pr es) <-> single_valued es).
Proof.
  intros pr es D. destruct (fixed_facts es D) as [F T]. split; [|intros S; apply mass_inserts_ok; assumption]. intros P. apply (mass_inserts_inv pr es F P).
Qed.
Print Assumptions C73_inserts_fixed.
(** Variable-size keys: if no key is drawn twice, the test passes exactly when no key comes after keys that bury it. *)
Theorem C73_inserts_variable : forall pr es, drawn variable_key es -> NoDup (keys es) -> (passes (mass_inserts pr es) <-> in_time es).
Proof.
  intros pr es D ND. pose proof (variable_ok es D) as F. split; [|intros T; apply mass_inserts_ok; [exact F|apply nodup_single, ND|exact T]].
  intros P. apply (mass_inserts_inv pr es F P), ND.
Qed.
Print Assumptions C73_inserts_variable.
(** In particular some draws of distinct keys make it fail. *)
Definition zeros : list N := repeat 0 32.
Definition unlucky : list entry := [(K 4 0x1234, zeros); (K 4 0x1236, zeros); (K 1 1, zeros)].
Lemma zeros32 : bytes32 zeros.
Proof. split; [unfold zeros; repeat constructor|reflexivity]. Qed.
Lemma variable_word v : v < 2 ^ 40 -> variable_key (to_nibbles 256 v).
Proof.
  intros H. exists (rev (be_bytes 5 v)). unfold gen_variable_nibbles, from_le. rewrite rev_involutive.
  assert (L : length (be_bytes 5 v) = 5%nat) by apply be_bytes_length. rewrite rev_length, L.
  split; [apply Forall_rev, be_bytes_bytesl|]. split; [lia|]. f_equal. symmetry. apply (RlpFacts.from_be_bytes 5). exact H.
Qed.
Theorem C73_inserts_refuted : forall pr, exists es, drawn variable_key es /\ NoDup (keys es) /\ ~ passes (mass_inserts pr es).
Proof.
  intros pr. exists unlucky.
  assert (D : drawn variable_key unlucky) by (repeat constructor; try apply zeros32; cbn [fst]; [apply (variable_word 0x1234)|apply (variable_word 0x1236)|apply (variable_word 1)]; reflexivity).
  assert (ND : NoDup (keys unlucky)) by (vm_compute; repeat constructor; cbn; intuition congruence).
  split; [exact D|]. split; [exact ND|]. rewrite (C73_inserts_variable pr unlucky D ND). intros T.
  apply (T [(K 4 0x1234, zeros); (K 4 0x1236, zeros)] (K 1 1, zeros) [] eq_refl). split; [vm_compute; intuition congruence|].
  exists 2, [3; 4], [3; 6]. split; [congruence|]. split; [vm_compute; auto|]. split; [vm_compute; auto|]. intros y q. vm_compute. intuition congruence.
Qed.
Print Assumptions C73_inserts_refuted.

(** With hash nodes: the slots are the keys followed by a nibble 1, and the test passes exactly when no slot that is used is a key or a
    prefix of one. *)
Theorem C73_hash_nodes : forall pr rng es, drawn variable_key es -> single_valued es -> in_time es -> chooses rng ->
  exists slots, NoDup slots /\ (forall s, In s slots <-> kwf s /\ exists e, In e es /\ nseq s = nseq (fst e) ++ [1]) /\
    (passes (mass_inserts_with_hash_nodes pr rng es) <-> forall f e, In f (rng slots) -> In e es -> ~ is_prefix (nseq (fst f)) (nseq (fst e))).
Proof. intros pr rng es D S T Ch. exact (hash_nodes_exact pr rng es (variable_ok es D) S T Ch). Qed.
Print Assumptions C73_hash_nodes.
Definition all_slots (slots : list nibbles) : list entry := map (fun s => (s, zeros)) slots.
Lemma all_slots_chooses : chooses all_slots.
Proof.
  intros slots. unfold all_slots. rewrite map_map. cbn [fst]. rewrite map_id. split; [exists []; rewrite app_nil_r; apply Permutation.Permutation_refl|].
  apply Forall_map, Forall_forall. intros s _. apply zeros32.
Qed.
Theorem C73_hash_nodes_refuted : forall pr, exists rng es, drawn variable_key es /\ NoDup (keys es) /\ in_time es /\ chooses rng /\
  ~ passes (mass_inserts_with_hash_nodes pr rng es).
Proof.
  intros pr. set (es := [(K 4 0x1234, zeros); (K 5 0x12341, zeros)] : list entry). exists all_slots, es.
  assert (D : drawn variable_key es) by (repeat constructor; try apply zeros32; cbn [fst]; [apply (variable_word 0x1234)|apply (variable_word 0x12341)]; reflexivity).
  assert (ND : NoDup (keys es)) by (vm_compute; repeat constructor; cbn; intuition congruence).
  assert (T : in_time es).
  { apply C34_in_time. left. cbn [short_first es fst]. split; [intros f [<-|[]]; vm_compute; lia|]. split; [intros f []|exact Logic.I]. }
  split; [exact D|]. split; [exact ND|]. split; [exact T|]. split; [apply all_slots_chooses|].
  destruct (C73_hash_nodes pr all_slots es D (nodup_single es ND) T all_slots_chooses) as (slots & _ & Hs & Iff). rewrite Iff. intros A.
  apply (A (K 5 0x12341, zeros) (K 5 0x12341, zeros)).
  - unfold all_slots. apply in_map_iff. exists (K 5 0x12341). split; [reflexivity|]. apply Hs. split; [split; vm_compute; [reflexivity|discriminate]|]. exists (K 4 0x1234, zeros). split; [left; reflexivity|vm_compute; reflexivity].
  - right. left. reflexivity.
  - exists []. reflexivity.
Qed.
Print Assumptions C73_hash_nodes_refuted.

(** ** Comparison, get, clones, iteration (trie_ops.rs:923-1009) *)
Theorem C73_equivalency : forall pr es1 es2, drawn fixed_key es1 -> drawn fixed_key es2 ->
  (equivalency_check pr es1 es2 = Ok tt <-> exists k, last_value es1 k <> last_value es2 k).
Proof.
  intros pr es1 es2 D1 D2. destruct (fixed_facts es1 D1) as [F1 T1]. destruct (fixed_facts es2 D2) as [F2 T2]. apply equivalency_exact; assumption.
Qed.
Print Assumptions C73_equivalency.
Theorem C73_get : forall pr es, drawn fixed_key es -> (get_massive pr es = Ok tt <-> single_valued es).
Proof. intros pr es D. destruct (fixed_facts es D) as [F T]. apply get_massive_exact; assumption. Qed.
Print Assumptions C73_get.
(** Clones held while the trie changes: the test passes for every draw. *)
Theorem C73_clones : forall pr es, drawn variable_key es -> passes (held_clones pr es).
Proof. intros pr es D. apply held_clones_ok, variable_ok, D. Qed.
Print Assumptions C73_clones.
(** Iteration: [l] is what is drawn, [es] the order in which the [HashSet] gives it. *)
Theorem C73_iter : forall pr l es, drawn variable_key l -> set_of es l ->
  (passes (trie_iter_works pr es) <-> single_valued l /\ in_time es).
Proof.
  intros pr l es D [ND H]. assert (De : drawn variable_key es) by (apply Forall_forall; intros e I; apply (proj1 (Forall_forall _ _) D), H, I).
  pose proof (variable_ok es De) as F. change (trie_iter_works pr es) with (mass_inserts pr es).
  assert (SV : single_valued l <-> single_valued es) by (split; intros S k v w A B; apply (S k v w); apply H; assumption).
  assert (NK : single_valued es -> NoDup (keys es)).
  { intros S. apply keys_nodup; [eapply Forall_impl; [|exact F]; intros e [A _]; exact A|]. clear - S ND. induction ND as [|[k v] es N1 N2 IH]; cbn [map]; constructor.
    - intros I. apply in_map_iff in I. destruct I as ([k' w] & E & I). cbn [fst] in E. subst k'. apply N1. rewrite (S k v w); [exact I|left; reflexivity|right; exact I].
    - apply IH. intros j a b A B. apply (S j a b); right; assumption. }
  rewrite SV. split.
  - intros P. destruct (mass_inserts_inv pr es F P) as [S T]. split; [exact S|apply T, NK, S].
  - intros [S T]. apply mass_inserts_ok; assumption.
Qed.
Print Assumptions C73_iter.

(** ** Deletion (trie_ops.rs:1030-1052) *)
(** Distinct keys, none a prefix of another: in release builds the test passes; in debug builds it passes exactly when no deleted key ends
    in the middle of an extension of what is left. *)
Theorem C73_deletion : forall pr es, drawn variable_key es -> NoDup (keys es) -> prefix_free (fun j => In j (keys es)) ->
  (deletion_massive pr es = Ok tt <->
   (pr = Debug -> forall a k v b, firstn (Nat.div2 (length es)) es = a ++ (k, v) :: b ->
      ~ ends_between (keys (b ++ skipn (Nat.div2 (length es)) es)) (nseq k))).
Proof. intros pr es D ND PF. apply deletion_exact; [apply variable_ok, D|exact ND|exact PF]. Qed.
Print Assumptions C73_deletion.
Definition unlucky_deletion : list entry := [(K 1 7, zeros); (K 4 0x1234, zeros); (K 4 0x1235, zeros)].
Theorem C73_deletion_refuted : drawn variable_key unlucky_deletion /\ NoDup (keys unlucky_deletion) /\ prefix_free (fun j => In j (keys unlucky_deletion)) /\
  deletion_massive Debug unlucky_deletion = Panic /\ deletion_massive Release unlucky_deletion = Ok tt.
Proof.
  split; [repeat constructor; try apply zeros32; cbn [fst]; [apply (variable_word 7)|apply (variable_word 0x1234)|apply (variable_word 0x1235)]; reflexivity|].
  split; [vm_compute; repeat constructor; cbn; intuition congruence|]. split; [|split; vm_compute; reflexivity].
  intros a b Ia Ib (x & r & E). vm_compute in Ia, Ib. destruct Ia as [<-|[<-|[<-|[]]]]; destruct Ib as [<-|[<-|[<-|[]]]]; cbn in E; congruence.
Qed.
Print Assumptions C73_deletion_refuted.

(** ** Root hashes (trie_hashing.rs:305-385 and 416-452) *)
(** After every insert the root is that of the Yellow Paper: for fixed-size keys always, otherwise if no key is buried. *)
Theorem C73_hashes : forall keccak pr es, hash32 keccak -> drawn fixed_key es \/ (drawn padded_key es /\ in_time es) ->
  insert_hashes_agree keccak pr es = Ok tt.
Proof.
  intros keccak pr es H32 [D|[D T]]; apply insert_hashes_ok; auto.
  - apply (drawn_good fixed_key); [apply fixed_even|exact D].
  - apply fixed_facts, D.
  - apply (drawn_good padded_key); [apply padded_ok|exact D].
Qed.
Print Assumptions C73_hashes.
Theorem C73_deletion_hashes : forall keccak pr es, hash32 keccak -> drawn padded_key es -> prefix_free (fun j => In j (keys es)) ->
  deletion_hashes_agree keccak pr es = Ok tt.
Proof. intros keccak pr es H32 D PF. apply deletion_hashes_ok; auto. apply (drawn_good padded_key); [apply padded_ok|exact D]. Qed.
Print Assumptions C73_deletion_hashes.
(** Replacing children of the root by hash nodes: forcing the first nibbles of the keys does not panic, and if no forced key is buried the
    test passes. *)
Theorem C73_replacing : forall keccak pr gs, hash32 keccak -> length gs = 16%nat -> Forall (fun g => g <> [] /\ drawn variable_key g) gs ->
  exists es, force_groups pr 0 gs = Ok es /\ (in_time es -> replacing_children keccak pr gs = Ok tt).
Proof.
  intros keccak pr gs H32 L F.
  assert (F1 : Forall (Forall (fun e : entry => kwf (fst e) /\ bytes32 (snd e))) gs).
  { eapply Forall_impl; [|exact F]. intros g [_ D]. eapply Forall_impl; [|exact D]. intros e [A B]. split; [apply variable_kwf, A|exact B]. }
  assert (F2 : Forall (fun g : list entry => g <> []) gs) by (eapply Forall_impl; [|exact F]; intros g [A _]; exact A).
  destruct (force_groups_ok pr gs 0 ltac:(lia) F1) as (es & E & _). exists es. split; [exact E|]. intros T. eapply replacing_ok; eassumption.
Qed.
Print Assumptions C73_replacing.

(** ** Subsets and counts (trie_subsets.rs:575-645, stats.rs:340-374) *)
Theorem C73_subsets : forall keccak pr es kss, hash32 keccak -> drawn fixed_key es -> Forall (fun ks => incl ks (map fst es)) kss ->
  passes (subset_keys keccak pr es kss) /\ subset_hashes keccak pr es kss = Ok tt.
Proof.
  intros keccak pr es kss H32 D I. pose proof (drawn_valued fixed_key es (fun k X => proj1 (fixed_ok k X)) D) as F. destruct (fixed_facts es D) as [_ T].
  split; [apply (subset_keys_ok keccak pr H32); assumption|apply (subset_hashes_ok keccak pr H32); assumption].
Qed.
Print Assumptions C73_subsets.
(** The counts are right exactly when no key is drawn twice. *)
Theorem C73_stats : forall keccak pr es hs, drawn fixed_key es -> drawn fixed_key hs -> N.of_nat (length es + length hs) < 2 ^ 27 ->
  (stats_count keccak pr es hs = Ok tt <-> NoDup (keys (es ++ hs))).
Proof. intros keccak pr es hs. apply stats_exact. Qed.
Print Assumptions C73_stats.

(** ** Draws that meet the hypotheses *)
Definition fixed_draw (n : N) : entry := (gen_fixed_nibbles n (n * 7) 3 (0x1000000000000000 + n), repeat n 32).
Lemma fixed_draw_ok l : Forall (fun n => n < 256) l -> drawn fixed_key (map fixed_draw l).
Proof.
  intros F. apply Forall_map. eapply Forall_impl; [|exact F]. intros n Hn. cbn [fixed_draw fst snd]. split.
  - cbv beta in Hn. exists n, (n * 7), 3, (0x1000000000000000 + n). change (2 ^ 64) with 0x10000000000000000. split; [lia|]. split; [lia|]. split; [reflexivity|]. split; [lia|reflexivity].
  - split; [|apply repeat_length]. apply Forall_forall. intros x I. apply repeat_spec in I. subst x. exact Hn.
Qed.
Definition ex_fixed : list entry := map fixed_draw [1; 2; 17; 33; 200].
Definition ex_variable : list entry := [(K 1 1, zeros); (K 4 0x1234, repeat 5 32); (K 4 0x1236, zeros); (K 9 0xabcdef123, zeros)].
Definition ex_padded : list entry := [(K 2 1, zeros); (K 4 0x1234, repeat 5 32); (K 4 0x1236, zeros); (K 10 0xabcdef123, zeros)].
Example C73_example :
  drawn fixed_key ex_fixed /\ NoDup (keys ex_fixed) /\ single_valued ex_fixed /\ drawn variable_key ex_variable /\ NoDup (keys ex_variable) /\ in_time ex_variable /\
  drawn padded_key ex_padded /\ prefix_free (fun j => In j (keys ex_padded)) /\ drawn variable_key (tl ex_variable) /\ prefix_free (fun j => In j (keys (tl ex_variable))) /\
  set_of (rev ex_variable) ex_variable /\ ~ in_time (rev ex_variable) /\
  deletion_massive Debug (tl ex_variable) = Ok tt /\ chooses all_slots /\
  Forall (fun ks => incl ks (map fst ex_fixed)) [map fst (tl ex_fixed); []; [fst (fixed_draw 17)]] /\ stats_count keccak256 Debug ex_fixed [] = Ok tt.
Proof.
  assert (DF : drawn fixed_key ex_fixed) by (apply fixed_draw_ok; repeat constructor).
  assert (NF : NoDup (keys ex_fixed)) by (vm_compute; repeat constructor; cbn; intuition congruence).
  assert (B5 : bytes32 (repeat 5 32)) by (split; [repeat constructor|reflexivity]).
  assert (DV : drawn variable_key ex_variable).
  { repeat constructor; try apply zeros32; try apply B5; cbn [fst]; [apply (variable_word 1)|apply (variable_word 0x1234)|apply (variable_word 0x1236)|apply (variable_word 0xabcdef123)]; reflexivity. }
  split; [exact DF|]. split; [exact NF|]. split; [apply nodup_single, NF|]. split; [exact DV|].
  split; [vm_compute; repeat constructor; cbn; intuition congruence|].
  split; [apply C34_in_time; left; cbn [ex_variable short_first fst In]; repeat split; intros f H; repeat (destruct H as [<-|H]); try destruct H; vm_compute; lia|].
  split.
  { constructor; [|constructor; [|constructor; [|constructor; [|constructor]]]]; (split; [cbn [fst]|try apply zeros32; try apply B5]).
    - exists (K 1 1). split; [apply (variable_word 1); reflexivity|reflexivity].
    - exists (K 4 0x1234). split; [apply (variable_word 0x1234); reflexivity|reflexivity].
    - exists (K 4 0x1236). split; [apply (variable_word 0x1236); reflexivity|reflexivity].
    - exists (K 9 0xabcdef123). split; [apply (variable_word 0xabcdef123); reflexivity|reflexivity]. }
  split. { intros a b Ia Ib (x & r & E). vm_compute in Ia, Ib. destruct Ia as [<-|[<-|[<-|[<-|[]]]]]; destruct Ib as [<-|[<-|[<-|[<-|[]]]]]; cbn in E; congruence. }
  split; [inversion DV; assumption|].
  split. { intros a b Ia Ib (x & r & E). vm_compute in Ia, Ib. destruct Ia as [<-|[<-|[<-|[]]]]; destruct Ib as [<-|[<-|[<-|[]]]]; cbn in E; congruence. }
  split. { split; [vm_compute; repeat constructor; cbn; intuition congruence|]. intros e. symmetry. apply in_rev. }
  split.
  { intros T. apply (T [(K 9 0xabcdef123, zeros); (K 4 0x1236, zeros); (K 4 0x1234, repeat 5 32)] (K 1 1, zeros) [] eq_refl). split; [vm_compute; intuition congruence|].
    exists 2, [3; 4], [3; 6]. split; [congruence|]. split; [vm_compute; auto|]. split; [vm_compute; auto|]. intros y q. vm_compute. intuition congruence. }
  split; [vm_compute; reflexivity|]. split; [apply all_slots_chooses|]. split; [|vm_compute; reflexivity].
  constructor; [intros k I; right; exact I|]. constructor; [intros k []|]. constructor; [|constructor]. intros k [<-|[]]. right. right. left. reflexivity.
Qed.
Definition ex_groups : list (list entry) := repeat [(K 4 0x1234, zeros); (K 4 0x1334, repeat 5 32)] 16.
Example C73_replacing_example : length ex_groups = 16%nat /\ Forall (fun g => g <> [] /\ drawn variable_key g) ex_groups /\
  exists es, force_groups Debug 0 ex_groups = Ok es /\ in_time es /\ length es = 32%nat.
Proof.
  split; [reflexivity|]. split.
  { apply Forall_forall. intros g I. apply repeat_spec in I. subst g. split; [discriminate|]. repeat constructor; try apply zeros32; cbn [fst]; [apply (variable_word 0x1234)|apply (variable_word 0x1334)]; reflexivity. }
  eexists. split; [vm_compute; reflexivity|]. split; [|reflexivity]. apply (same_length_in_time 4). vm_compute. repeat constructor.
Qed.
