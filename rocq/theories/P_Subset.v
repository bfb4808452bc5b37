(** Properties C22-C26: trie subsets. [keccak] is any function with 32-byte outputs. *)
From Verif Require Import Base Nibbles NibblesSpec NibblesFacts NibblesFacts2 NibblesFacts3 Trie TrieSpec TrieHistSpec TrieFacts TrieInsert TrieGet TrieDelete TrieUnique TrieIter TrieHist TrieObs InsertWf Rlp YellowPaper Hashing Keccak HashSpec HideSpec HashFacts KeccakFacts HideFacts HideBind Subset SubsetSpec SubsetFacts SubsetFacts2 P_Trie P_Hash.
Open Scope N_scope.

Lemma subset_inv keccak pr t ks s : create_trie_subset keccak pr t ks = Ok (ROk s) ->
  exists tr, mark_all pr (track t) ks = Ok (ROk tr) /\ create_from_tracked keccak pr tr = Ok s /\ tracks tr t.
Proof.
  unfold create_trie_subset, create_trie_subset_intern. intros E. destruct (mark_all pr (track t) ks) as [[tr|]|] eqn:Em; try discriminate. cbn [bind] in E.
  destruct (create_from_tracked keccak pr tr) as [n|] eqn:Ec; [|discriminate]. cbn [bind] in E. injection E as <-. exists tr. split; [reflexivity|]. split; [exact Ec|].
  exact (fle_tracks _ _ _ (mark_all_fle _ _ _ _ Em) (track_tracks t)).
Qed.

Lemma subset_hides keccak pr t ks s : hash32 keccak -> wf 64 t -> fits t -> create_trie_subset keccak pr t ks = Ok (ROk s) -> hides keccak t s.
Proof.
  intros K W F E. destruct (subset_inv _ _ _ _ _ E) as (tr & _ & Ec & T).
  destruct (create_hides keccak K pr tr t 64 T W (le_n _) F) as (t' & Ec' & H). congruence.
Qed.

(** * C22: the root hash is kept *)
Theorem C22_root_hash : forall keccak pr t ks s,
  hash32 keccak -> wf 64 t -> fits t ->
  create_trie_subset keccak pr t ks = Ok (ROk s) -> hash_trie keccak pr s = hash_trie keccak pr t.
Proof. intros keccak pr t ks s K W F E. apply C20_hiding_keeps_root; auto. apply (subset_hides keccak pr t ks s K W F E). Qed.

Lemma subsets_tracked keccak pr t kss : forall tr l, hash32 keccak -> wf 64 t -> fits t -> tracks tr t ->
  create_subsets_from keccak pr tr kss = Ok (ROk l) ->
  Forall2 (fun ks s => hides keccak t s /\ (forall k, In k ks -> trie_get pr s k = trie_get pr t k) /\
                       exists s1, create_trie_subset keccak pr t ks = Ok (ROk s1) /\ hides keccak s s1) kss l.
Proof.
  induction kss as [|ks kss IH]; intros tr l K W F T E; cbn [create_subsets_from] in E; [injection E as <-; constructor|].
  unfold create_trie_subset_intern in E. destruct (mark_all pr tr ks) as [[tr1|]|] eqn:Em; try discriminate. cbn [bind] in E.
  pose proof (fle_tracks _ _ _ (mark_all_fle _ _ _ _ Em) T) as T1.
  destruct (create_hides keccak K pr tr1 t 64 T1 W (le_n _) F) as (s & Es & Hs). rewrite Es in E. cbn [bind] in E.
  destruct (create_subsets_from keccak pr (reset_tracked tr1) kss) as [[l'|]|] eqn:El; try discriminate. cbn [bind] in E. injection E as <-.
  constructor; [|apply (IH (reset_tracked tr1)); auto; apply reset_tracks, T1].
  split; [exact Hs|]. split.
  - intros k I. apply (create_kept_get keccak pr pr tr1 t k s T1 (mark_all_kept _ _ _ _ _ Em I) Es).
  - pose proof (mark_all_mono pr ks _ _ (track_least t tr T)) as M. rewrite Em in M. unfold create_trie_subset, create_trie_subset_intern.
    destruct (mark_all pr (track t) ks) as [[tr0|]|] eqn:E0; try discriminate. destruct M as (b' & [= <-] & FL). cbn [bind].
    pose proof (fle_tracks _ _ _ (mark_all_fle _ _ _ _ E0) (track_tracks t)) as T0.
    destruct (create_hides keccak K pr tr0 t 64 T0 W (le_n _) F) as (s1 & Es1 & Hs1). rewrite Es1. cbn [bind]. exists s1. split; [reflexivity|].
    exact (create_mono keccak K pr tr0 tr1 t 64 s1 s FL T0 W (le_n _) F Es1 Es).
Qed.

Lemma Forall2_in_r {A B} (R : A -> B -> Prop) l l' b : Forall2 R l l' -> In b l' -> exists a, In a l /\ R a b.
Proof. induction 1; intros []; [subst; eexists; split; [left; reflexivity|assumption]|]. destruct IHForall2 as (a & I & r); [assumption|]. exists a. split; [right; exact I|exact r]. Qed.

Theorem C22_batch_root_hash : forall keccak pr t kss l s,
  hash32 keccak -> wf 64 t -> fits t ->
  create_trie_subsets keccak pr t kss = Ok (ROk l) -> In s l -> hash_trie keccak pr s = hash_trie keccak pr t.
Proof.
  intros keccak pr t kss l s K W F E I. pose proof (subsets_tracked keccak pr t kss _ l K W F (track_tracks t) E) as A.
  destruct (Forall2_in_r _ _ _ _ A I) as (ks & _ & H & _). apply C20_hiding_keeps_root; auto.
Qed.

(** An example: the subset of [ex_big] for the keys 0x5678 (present) and 0x1999 (absent). *)
Definition oks (r : res (result node subset_error)) : node := match r with Ok (ROk t) => t | _ => Empty end.
Definition ex_keys : list nibbles := [K 4 0x5678; K 4 0x1999].
Definition ex_subset : node := oks (create_trie_subset keccak256 Debug ex_big ex_keys).
Example C22_example : wf 64 ex_big /\ fits ex_big /\ create_trie_subset keccak256 Debug ex_big ex_keys = Ok (ROk ex_subset) /\ ex_subset <> ex_big.
Proof.
  destruct ex_big_ok as (_ & Wb & _ & Fb). split; [exact Wb|]. split; [exact Fb|].
  split; [vm_compute; reflexivity|vm_compute; discriminate].
Qed.

(** * C23: lookups in the subset *)
Theorem C23_requested : forall keccak pr t ks s k,
  create_trie_subset keccak pr t ks = Ok (ROk s) -> In k ks -> trie_get pr s k = trie_get pr t k.
Proof.
  intros keccak pr t ks s k E I. destruct (subset_inv _ _ _ _ _ E) as (tr & Em & Ec & T).
  exact (create_kept_get keccak pr pr tr t k s T (mark_all_kept _ _ _ _ _ Em I) Ec).
Qed.
Theorem C23_other : forall keccak pr t ks s k,
  hash32 keccak -> wf 64 t -> fits t -> create_trie_subset keccak pr t ks = Ok (ROk s) ->
  trie_get pr s k = trie_get pr t k \/ trie_get pr s k = Ok None.
Proof. intros keccak pr t ks s k K W F E. apply (hides_get keccak). exact (subset_hides _ _ _ _ _ K W F E). Qed.
Example C23_example : trie_get Debug ex_subset (K 4 0x5678) = Ok (Some (big 2)) /\ trie_get Debug ex_subset (K 4 0x5699) = Ok None /\ trie_get Debug ex_big (K 4 0x5699) = Ok (Some (big 3)).
Proof. repeat split; vm_compute; reflexivity. Qed.

(** * C24: what is kept and what is hashed *)
(** Debug builds: a successful subset is exactly the pruned trie. *)
Lemma debug_success_fine t : forall ks tr tr', wf 64 t -> tracks tr t -> Forall kwf ks -> mark_all Debug tr ks = Ok (ROk tr') ->
  forall k, In k ks -> ~ into_hash t (nseq k) /\ ~ too_short t (nseq k).
Proof.
  induction ks as [|k ks IH]; intros tr tr' W T Kw E k0 I0; [destruct I0|]. inversion Kw; subst. cbn [mark_all] in E.
  destruct (mark Debug tr k) as [[tr1|]|] eqn:Em; try discriminate. cbn [bind] in E.
  destruct I0 as [->|I0]; [|exact (IH tr1 tr' W (fle_tracks _ _ _ (mark_fle _ _ _ _ Em) T) ltac:(assumption) E k0 I0)].
  destruct (kwf_ex k0 ltac:(assumption)) as (l & -> & El & Hl & Ll). rewrite El. split; intros A.
  - destruct (mark_into_hash Debug t 64 tr l W Hl Ll T A) as (q & h & Eq & _). congruence.
  - rewrite (mark_short_debug t 64 tr l W Hl Ll T A) in Em. discriminate.
Qed.

Theorem C24_exact : forall keccak pr t ks s,
  hash32 keccak -> wf 64 t -> fits t -> Forall kwf ks ->
  pr = Debug \/ (forall k, In k ks -> ~ too_short t (nseq k)) ->
  create_trie_subset keccak pr t ks = Ok (ROk s) -> s = prune keccak (map nseq ks) t.
Proof.
  intros keccak pr t ks s K W F Kw P E. destruct (subset_inv _ _ _ _ _ E) as (tr & Em & Ec & T).
  assert (G : forall k, In k ks -> ~ into_hash t (nseq k) /\ ~ too_short t (nseq k)).
  { destruct P as [->|P]; [exact (debug_success_fine t ks _ _ W (track_tracks t) Kw Em)|]. intros k I. split; [|exact (P k I)]. intros A.
    destruct (mark_all_err pr t ks (track t) W (track_tracks t) Kw) as [e Ee]; [eauto|auto|]. congruence. }
  rewrite track_flag, (mark_all_flag pr t ks [] W Kw) in Em by (intros k I; apply (G k I)). injection Em as <-.
  rewrite app_nil_r, (create_flag keccak K pr t 64 _ W (le_n _) F) in Ec. injection Ec as <-. reflexivity.
Qed.

(** For keys of one length, in both profiles. *)
Theorem C24_fixed_length : forall keccak pr n t ks s,
  hash32 keccak -> wf n t -> (n <= 64)%nat -> fits t -> Forall kwf ks -> (forall k, In k ks -> length (nseq k) = n) ->
  create_trie_subset keccak pr t ks = Ok (ROk s) -> s = prune keccak (map nseq ks) t.
Proof.
  intros keccak pr n t ks s K W L F Kw Len E. apply (C24_exact keccak pr t ks s K (wf_weaken _ _ W _ L) F Kw); [|exact E].
  right. intros k I. apply (long_not_short t n _ W). rewrite (Len k I). lia.
Qed.

(** Two requested lists with the same set of keys give the same subset. *)
Theorem C24_order_irrelevant : forall keccak t ks ks' s s',
  hash32 keccak -> wf 64 t -> fits t -> Forall kwf ks -> Forall kwf ks' -> (forall k, In k ks <-> In k ks') ->
  create_trie_subset keccak Debug t ks = Ok (ROk s) -> create_trie_subset keccak Debug t ks' = Ok (ROk s') -> s = s'.
Proof.
  intros keccak t ks ks' s s' K W F Kw Kw' EQ E E'.
  rewrite (C24_exact keccak Debug t ks s K W F Kw (or_introl eq_refl) E), (C24_exact keccak Debug t ks' s' K W F Kw' (or_introl eq_refl) E').
  assert (Q : Ok (prune keccak (map nseq ks) t) = Ok (prune keccak (map nseq ks') t)); [|injection Q as ->; reflexivity].
  rewrite <- !(create_flag keccak K Debug t 64 _ W (le_n _) F). f_equal. apply flag_equiv. intros k. rewrite !in_map_iff. split; intros (x & A & B); exists x; (split; [exact A|apply EQ, B]).
Qed.

(** Release builds, a key that ends inside an extension node of zeros: nodes that are not on its path are kept. *)
Theorem C24_short_key_refuted : exists t k s, wf 64 t /\ canon t /\ fits t /\ kwf k /\
  create_trie_subset keccak256 Release t [k] = Ok (ROk s) /\ s <> prune keccak256 [nseq k] t.
Proof.
  set (l := [(K 4 0x0001, Val (big 1)); (K 4 0x0002, Val (big 2))]). set (t := okn (from_iter Debug l)).
  exists t, (K 1 0), (oks (create_trie_subset keccak256 Release t [K 1 0])).
  assert (E : from_iter Debug l = Ok t) by (vm_compute; reflexivity).
  apply and_assoc; split; [|split; [|split; [kwf_tac|]]].
  - apply (extend_canon Debug l Empty); [constructor|constructor| |exact E]. repeat constructor; cbn; try (vm_compute; (reflexivity || (intro; discriminate))).
  - apply (extend_fits Debug l Empty) in E; [exact E|exact I|]. repeat constructor; cbn; try (vm_compute; (reflexivity || (intro; discriminate))).
  - split; vm_compute; (reflexivity || discriminate).
Qed.
Example C24_example : prune keccak256 (map nseq ex_keys) ex_big = ex_subset /\ prune keccak256 [] ex_big <> ex_subset /\
  prune keccak256 (map nseq [K 4 0x5678; K 4 0x1999; K 4 0x5699]) ex_big = ex_big.
Proof. split; [vm_compute; reflexivity|]. split; [vm_compute; discriminate|vm_compute; reflexivity]. Qed.

(** * C25: errors *)
(** False as stated in debug builds: a key that ends inside an extension node panics. *)
Theorem C25_short_key_refuted : exists t k, wf 64 t /\ canon t /\ fits t /\ kwf k /\ hash_free t /\
  create_trie_subset keccak256 Debug t [k] = Panic.
Proof.
  set (l := [(K 4 0x1234, Val [1]); (K 4 0x1235, Val [2])]). set (t := okn (from_iter Debug l)). exists t, (K 1 5).
  assert (E : from_iter Debug l = Ok t) by (vm_compute; reflexivity).
  apply and_assoc; split; [|split; [|split; [kwf_tac|split]]].
  - apply (extend_canon Debug l Empty); [constructor|constructor| |exact E]. repeat constructor; cbn; try (vm_compute; (reflexivity || (intro; discriminate))).
  - apply (extend_fits Debug l Empty) in E; [exact E|exact I|]. repeat constructor; cbn; try (vm_compute; (reflexivity || (intro; discriminate))).
  - apply entries_hash_free. vm_compute. repeat constructor.
  - vm_compute. reflexivity.
Qed.

Lemma subset_of_marks keccak pr t ks : hash32 keccak -> wf 64 t -> fits t ->
  create_trie_subset keccak pr t ks =
  match mark_all pr (track t) ks with
  | Ok (ROk tr) => create_trie_subset keccak pr t ks
  | Ok (RErr e) => Ok (RErr e)
  | Panic => Panic
  end.
Proof. intros K W F. unfold create_trie_subset, create_trie_subset_intern. destruct (mark_all pr (track t) ks) as [[tr|]|]; reflexivity. Qed.

Lemma subset_ok_of_marks keccak pr t ks tr : hash32 keccak -> wf 64 t -> fits t -> mark_all pr (track t) ks = Ok (ROk tr) ->
  exists s, create_trie_subset keccak pr t ks = Ok (ROk s).
Proof.
  intros K W F E. unfold create_trie_subset, create_trie_subset_intern. rewrite E. cbn [bind].
  destruct (create_hides keccak K pr tr t 64 (fle_tracks _ _ _ (mark_all_fle _ _ _ _ E) (track_tracks t)) W (le_n _) F) as (s & -> & _). eexists. reflexivity.
Qed.

Lemma exists_dec_in {A} (P : A -> Prop) l : (forall x, In x l -> P x \/ ~ P x) -> (exists x, In x l /\ P x) \/ (forall x, In x l -> ~ P x).
Proof.
  induction l as [|a l IH]; intros D; [right; intros x []|]. destruct (D a ltac:(left; reflexivity)) as [Pa|Na]; [left; exists a; split; [left; reflexivity|exact Pa]|].
  destruct IH as [(x & I & Px)|H]; [intros; apply D; right; assumption|left; exists x; split; [right; exact I|exact Px]|right]. intros x [<-|I]; auto.
Qed.

(** With no key that ends inside an extension node: an error exactly when a key leads into a hash node, otherwise a
    result; in release builds without this condition. *)
Theorem C25_errors_partial : forall keccak pr t ks,
  hash32 keccak -> wf 64 t -> fits t -> Forall kwf ks ->
  pr = Release \/ (forall k, In k ks -> ~ too_short t (nseq k)) ->
  (exists k, In k ks /\ into_hash t (nseq k)) /\ (exists e, create_trie_subset keccak pr t ks = Ok (RErr e)) \/
  (forall k, In k ks -> ~ into_hash t (nseq k)) /\ (exists s, create_trie_subset keccak pr t ks = Ok (ROk s)).
Proof.
  intros keccak pr t ks K W F Kw P.
  destruct (exists_dec_in (fun k => into_hash t (nseq k)) ks) as [A|A]; [intros k _; apply (into_hash_dec t 64 _ W)|left|right]; (split; [exact A|]).
  - destruct (mark_all_err pr t ks (track t) W (track_tracks t) Kw A P) as [e E]. exists e. rewrite subset_of_marks, E by assumption. reflexivity.
  - destruct (mark_all_ok pr t ks (track t) W (track_tracks t) Kw A P) as (tr & E & _). exact (subset_ok_of_marks keccak pr t ks tr K W F E).
Qed.

(** Keys at least as long as the longest path of the trie, as for keys of one length. *)
Theorem C25_fixed_length : forall keccak pr n t ks,
  hash32 keccak -> wf n t -> (n <= 64)%nat -> fits t -> Forall kwf ks -> (forall k, In k ks -> n <= length (nseq k))%nat ->
  (exists k, In k ks /\ into_hash t (nseq k)) /\ (exists e, create_trie_subset keccak pr t ks = Ok (RErr e)) \/
  (forall k, In k ks -> ~ into_hash t (nseq k)) /\ (exists s, create_trie_subset keccak pr t ks = Ok (ROk s)).
Proof.
  intros keccak pr n t ks K W L F Kw Len. apply C25_errors_partial; auto; [exact (wf_weaken _ _ W _ L)|].
  right. intros k I. apply (long_not_short t n _ W (Len k I)).
Qed.

(** Debug builds: the first key that leads into a hash node or ends inside an extension node decides. *)
Theorem C25_debug_exact : forall keccak t ks1 k ks2,
  hash32 keccak -> wf 64 t -> fits t -> Forall kwf (ks1 ++ k :: ks2) ->
  (forall k, In k ks1 -> ~ into_hash t (nseq k) /\ ~ too_short t (nseq k)) ->
  (into_hash t (nseq k) -> exists e, create_trie_subset keccak Debug t (ks1 ++ k :: ks2) = Ok (RErr e)) /\
  (too_short t (nseq k) -> create_trie_subset keccak Debug t (ks1 ++ k :: ks2) = Panic).
Proof.
  intros keccak t ks1 k ks2 K W F Kw H. destruct (mark_all_first t ks1 k ks2 (track t) W (track_tracks t) Kw H) as [A B]. split; intros C.
  - destruct (A C) as [e E]. exists e. rewrite subset_of_marks, E by assumption. reflexivity.
  - rewrite subset_of_marks, (B C) by assumption. reflexivity.
Qed.

(** The key in the error is the part of the key below the hash node, and the node in the error is that hash node. *)
Theorem C25_error_key : forall keccak pr t k, 
  hash32 keccak -> wf 64 t -> fits t -> kwf k -> into_hash t (nseq k) ->
  exists p q h, nseq k = p ++ q /\ q <> [] /\ lk t p = Some (HashV h) /\ create_trie_subset keccak pr t [k] = Ok (RErr (UnexpectedKey (enc q) (Hash h))).
Proof.
  intros keccak pr t k K W F Hk A. destruct (kwf_ex k Hk) as (l & -> & El & Hl & Ll). rewrite El in *.
  destruct (mark_into_hash pr t 64 (track t) l W Hl Ll (track_tracks t) A) as (q & h & E & Q & p & Ep & L). exists p, q, h. split; [exact Ep|]. split; [exact Q|]. split; [exact L|].
  rewrite subset_of_marks by assumption. cbn [mark_all]. rewrite E. reflexivity.
Qed.

(** For a list of keys, the error is about the first key that leads into a hash node. *)
Theorem C25_error_names : forall keccak pr t ks e,
  hash32 keccak -> wf 64 t -> fits t -> Forall kwf ks -> create_trie_subset keccak pr t ks = Ok (RErr e) ->
  exists ks1 k ks2 p q h, ks = ks1 ++ k :: ks2 /\ (forall x, In x ks1 -> ~ into_hash t (nseq x)) /\
    nseq k = p ++ q /\ q <> [] /\ lk t p = Some (HashV h) /\ e = UnexpectedKey (enc q) (Hash h).
Proof.
  intros keccak pr t ks e K W F Kw E. apply (mark_all_names pr t ks (track t) e W (track_tracks t) Kw).
  pose proof (subset_of_marks keccak pr t ks K W F) as S. destruct (mark_all pr (track t) ks) as [[tr|e']|] eqn:M; [|congruence..].
  destruct (subset_ok_of_marks keccak pr t ks tr K W F M) as [s Es]. congruence.
Qed.

Lemma hash_entries_not_into t k : Forall (fun e => match snd e with HashV _ => strip (fst e) k = None \/ fst e = k | Val _ => True end) (entries t) -> ~ into_hash t k.
Proof.
  intros F (p & h & E & x & c & ->). apply entries_lk in E. rewrite Forall_forall in F. specialize (F _ E). cbn [fst snd] in F.
  destruct F as [F|F]; [rewrite strip_app in F; discriminate|]. apply (f_equal (@length N)) in F. rewrite app_length in F. cbn [length] in F. lia.
Qed.
Example C25_example : into_hash ex_subset (nseq (K 4 0x5699)) /\ ~ into_hash ex_subset (nseq (K 4 0x5678)) /\
  create_trie_subset keccak256 Debug ex_subset [K 4 0x5678; K 4 0x5699] = Ok (RErr (UnexpectedKey (enc [9]) (match lk ex_subset [5;6;9] with Some (HashV h) => Hash h | _ => Empty end))).
Proof.
  change (nseq (K 4 0x5699)) with [5;6;9;9]. change (nseq (K 4 0x5678)) with [5;6;7;8]. split; [|split].
  - exists [5;6;9], (match lk ex_subset [5;6;9] with Some (HashV h) => h | _ => [] end). split; [vm_compute; reflexivity|]. exists 9, []. reflexivity.
  - apply hash_entries_not_into. vm_compute. repeat constructor.
  - vm_compute. reflexivity.
Qed.
Example C25_fixed_example : wf 4 ex_big /\ Forall kwf ex_keys /\ (forall k, In k ex_keys -> 4 <= length (nseq k))%nat.
Proof.
  split; [|split].
  - set (t1 := okn (trie_insert Debug Empty (K 4 0x1234) (Val (big 1)))). set (t2 := okn (trie_insert Debug t1 (K 4 0x5678) (Val (big 2)))).
    apply (insert_wf Debug t2 4 [5;6;9;9] (Val (big 3))); [|lia|repeat constructor|cbn; lia|vm_compute; reflexivity].
    apply (insert_wf Debug t1 4 [5;6;7;8] (Val (big 2))); [|lia|repeat constructor|cbn; lia|vm_compute; reflexivity].
    apply (insert_wf Debug Empty 4 [1;2;3;4] (Val (big 1))); [constructor|lia|repeat constructor|cbn; lia|vm_compute; reflexivity].
  - repeat constructor; vm_compute; (reflexivity || (intro; discriminate)).
  - intros k [<-|[<-|[]]]; vm_compute; lia.
Qed.

(** * C26: batches *)
(** False as stated: the state of the root and of the nodes two or more levels down is not cleared between the lists. Here
    the second list asks for 0x5678, and still gets 0x5699, which only the first list asked for. *)
Theorem C26_refuted : forall pr, exists kss l s,
  Forall (Forall kwf) kss /\ create_trie_subsets keccak256 pr ex_big kss = Ok (ROk l) /\
  create_trie_subset keccak256 pr ex_big (nth 1 kss []) = Ok (ROk s) /\ nth 1 l Empty <> s /\
  trie_get pr s (K 4 0x5699) = Ok None /\ trie_get pr (nth 1 l Empty) (K 4 0x5699) = Ok (Some (big 3)).
Proof.
  intros pr. exists [[K 4 0x5699]; [K 4 0x5678]].
  exists (match create_trie_subsets keccak256 pr ex_big [[K 4 0x5699]; [K 4 0x5678]] with Ok (ROk l) => l | _ => [] end), (oks (create_trie_subset keccak256 pr ex_big [K 4 0x5678])).
  split; [repeat constructor; vm_compute; (reflexivity || (intro; discriminate))|].
  destruct pr; (split; [vm_compute; reflexivity|]; split; [vm_compute; reflexivity|]; split; [vm_compute; discriminate|]; split; vm_compute; reflexivity).
Qed.

(** Every result of the batch keeps the requested values of its own list, and is the single subset with at most additional
    nodes shown. *)
Theorem C26_supersets_partial : forall keccak pr t kss l,
  hash32 keccak -> wf 64 t -> fits t -> create_trie_subsets keccak pr t kss = Ok (ROk l) ->
  Forall2 (fun ks s => (forall k, In k ks -> trie_get pr s k = trie_get pr t k) /\ hash_trie keccak pr s = hash_trie keccak pr t /\
                       exists s1, create_trie_subset keccak pr t ks = Ok (ROk s1) /\ hides keccak s s1) kss l.
Proof.
  intros keccak pr t kss l K W F E. pose proof (subsets_tracked keccak pr t kss _ l K W F (track_tracks t) E) as A. clear E.
  induction A as [|ks s kss l (H & G & S) A IH]; constructor; [|exact IH]. split; [exact G|]. split; [apply C20_hiding_keeps_root; auto|exact S].
Qed.

(** The batch fails exactly when one of the lists alone does, with the error of the first that does. *)
Lemma subsets_outcome keccak pr t kss : forall tr, hash32 keccak -> wf 64 t -> fits t -> tracks tr t ->
  match create_subsets_from keccak pr tr kss with
  | Ok (ROk _) => forall ks, In ks kss -> exists s, create_trie_subset keccak pr t ks = Ok (ROk s)
  | r => exists ks1 ks ks2, kss = ks1 ++ ks :: ks2 /\ (forall ks, In ks ks1 -> exists s, create_trie_subset keccak pr t ks = Ok (ROk s)) /\
      match r with
      | Ok (RErr e) => create_trie_subset keccak pr t ks = Ok (RErr e)
      | _ => create_trie_subset keccak pr t ks = Panic
      end
  end.
Proof.
  induction kss as [|ks kss IH]; intros tr K W F T; cbn [create_subsets_from]; [intros ks []|].
  pose proof (mark_all_mono pr ks _ _ (track_least t tr T)) as M. unfold create_trie_subset_intern.
  destruct (mark_all pr (track t) ks) as [[tr0|e]|] eqn:E0.
  - destruct M as (tr1 & -> & FL). cbn [bind]. pose proof (fle_tracks _ _ _ (mark_all_fle _ _ _ _ E0) (track_tracks t)) as T0.
    pose proof (fle_tracks _ _ _ FL T0) as T1. destruct (create_hides keccak K pr tr1 t 64 T1 W (le_n _) F) as (s & -> & Hs). cbn [bind].
    destruct (subset_ok_of_marks keccak pr t ks tr0 K W F E0) as [s0 Es0].
    assert (Hd : forall l, (forall x, In x l -> exists s, create_trie_subset keccak pr t x = Ok (ROk s)) -> forall x, In x (ks :: l) -> exists s, create_trie_subset keccak pr t x = Ok (ROk s))
      by (intros l Hl x [<-|I]; eauto).
    specialize (IH (reset_tracked tr1) K W F (reset_tracks _ _ T1)). destruct (create_subsets_from keccak pr (reset_tracked tr1) kss) as [[l|e]|]; cbn [bind].
    + apply Hd, IH.
    + destruct IH as (ks1 & x & ks2 & -> & A & B). exists (ks :: ks1), x, ks2. split; [reflexivity|]. split; [apply Hd, A|exact B].
    + destruct IH as (ks1 & x & ks2 & -> & A & B). exists (ks :: ks1), x, ks2. split; [reflexivity|]. split; [apply Hd, A|exact B].
  - rewrite M. cbn [bind]. exists [], ks, kss. split; [reflexivity|]. split; [intros x []|]. rewrite (subset_of_marks keccak pr t ks K W F), E0. reflexivity.
  - rewrite M. cbn [bind]. exists [], ks, kss. split; [reflexivity|]. split; [intros x []|]. rewrite (subset_of_marks keccak pr t ks K W F), E0. reflexivity.
Qed.

Theorem C26_success_partial : forall keccak pr t kss,
  hash32 keccak -> wf 64 t -> fits t ->
  (exists l, create_trie_subsets keccak pr t kss = Ok (ROk l)) <-> (forall ks, In ks kss -> exists s, create_trie_subset keccak pr t ks = Ok (ROk s)).
Proof.
  intros keccak pr t kss K W F. pose proof (subsets_outcome keccak pr t kss (track t) K W F (track_tracks t)) as O. unfold create_trie_subsets.
  destruct (create_subsets_from keccak pr (track t) kss) as [[l|e]|].
  - split; [intros _; exact O|eauto].
  - destruct O as (ks1 & x & ks2 & -> & A & B). split; [intros [l E]; discriminate|]. intros H. destruct (H x) as [s E]; [apply in_or_app; right; left; reflexivity|congruence].
  - destruct O as (ks1 & x & ks2 & -> & A & B). split; [intros [l E]; discriminate|]. intros H. destruct (H x) as [s E]; [apply in_or_app; right; left; reflexivity|congruence].
Qed.
Theorem C26_first_error_partial : forall keccak pr t kss e,
  hash32 keccak -> wf 64 t -> fits t -> create_trie_subsets keccak pr t kss = Ok (RErr e) ->
  exists ks1 ks ks2, kss = ks1 ++ ks :: ks2 /\ (forall ks, In ks ks1 -> exists s, create_trie_subset keccak pr t ks = Ok (ROk s)) /\
    create_trie_subset keccak pr t ks = Ok (RErr e).
Proof.
  intros keccak pr t kss e K W F E. pose proof (subsets_outcome keccak pr t kss (track t) K W F (track_tracks t)) as O. unfold create_trie_subsets in E. rewrite E in O. exact O.
Qed.
Theorem C26_first_panic_partial : forall keccak pr t kss,
  hash32 keccak -> wf 64 t -> fits t -> create_trie_subsets keccak pr t kss = Panic ->
  exists ks1 ks ks2, kss = ks1 ++ ks :: ks2 /\ (forall ks, In ks ks1 -> exists s, create_trie_subset keccak pr t ks = Ok (ROk s)) /\
    create_trie_subset keccak pr t ks = Panic.
Proof.
  intros keccak pr t kss K W F E. pose proof (subsets_outcome keccak pr t kss (track t) K W F (track_tracks t)) as O. unfold create_trie_subsets in E. rewrite E in O. exact O.
Qed.

(** The first list. *)
Theorem C26_first_list_partial : forall keccak pr t ks kss s l,
  create_trie_subsets keccak pr t (ks :: kss) = Ok (ROk (s :: l)) -> create_trie_subset keccak pr t ks = Ok (ROk s).
Proof.
  intros keccak pr t ks kss s l E. unfold create_trie_subsets in E. cbn [create_subsets_from] in E. unfold create_trie_subset.
  destruct (create_trie_subset_intern keccak pr (track t) ks) as [[[n tr]|]|]; try discriminate. cbn [bind] in *.
  destruct (create_subsets_from keccak pr (reset_tracked tr) kss) as [[l'|]|]; try discriminate. cbn [bind] in E. congruence.
Qed.

(** The exact result of a batch. *)
Theorem C26_exact_partial : forall keccak pr t kss,
  hash32 keccak -> wf 64 t -> fits t -> Forall (Forall kwf) kss ->
  (forall ks k, In ks kss -> In k ks -> ~ into_hash t (nseq k) /\ ~ too_short t (nseq k)) ->
  create_trie_subsets keccak pr t kss = Ok (ROk (prune_each keccak [] (map (map nseq) kss) t)).
Proof. intros keccak pr t kss K W F Kw H. unfold create_trie_subsets. rewrite bflag_track. apply subsets_exact; auto. Qed.

(** The claim holds when no list is empty and keys of different lists begin with different nibbles, below a root that is a
    branch. *)
Lemma prune_after_indep keccak E K ch v : K <> [] -> (forall d, keys_under d K = [] \/ keys_under d E = []) ->
  prune_after keccak E K (Branch ch v) = prune keccak K (Branch ch v).
Proof.
  intros N D. unfold prune_after. destruct K as [|k K]; [congruence|]. cbn [app prune].
  change (k :: K ++ E) with ((k :: K) ++ E). f_equal. apply map_children_ext. intros j c _. f_equal.
  destruct (D j) as [A|A]; [rewrite A; reflexivity|]. unfold keys_under in *. rewrite flat_map_app, A, app_nil_r. destruct (flat_map _ (k :: K)); reflexivity.
Qed.
Lemma prune_each_indep keccak ch v Ks : forall E, (forall K, In K Ks -> K <> []) ->
  (forall K d, In K Ks -> keys_under d K = [] \/ keys_under d E = []) -> 
  ForallOrdPairs (fun K K' => forall d, keys_under d K = [] \/ keys_under d K' = []) Ks ->
  prune_each keccak E Ks (Branch ch v) = map (fun K => prune keccak K (Branch ch v)) Ks.
Proof.
  induction Ks as [|K Ks IH]; intros E N D P; cbn [prune_each map]; [reflexivity|]. inversion P as [|? ? P1 P2]; subst.
  rewrite prune_after_indep; [|apply N; left; reflexivity|intros d; apply D; left; reflexivity]. f_equal. apply IH; [intros; apply N; right; assumption| |exact P2].
  intros K' d I. rewrite Forall_forall in P1. destruct (P1 K' I d) as [A|A]; [|auto]. destruct (D K' d ltac:(right; exact I)) as [B|B]; [auto|right].
  unfold keys_under in *. rewrite flat_map_app, A, B. reflexivity.
Qed.

Definition begins (d : N) (ks : list nibbles) : Prop := exists k r, In k ks /\ nseq k = d :: r.
Theorem C26_independent_partial : forall keccak pr ch v kss,
  hash32 keccak -> wf 64 (Branch ch v) -> fits (Branch ch v) -> Forall (Forall kwf) kss ->
  (forall ks k, In ks kss -> In k ks -> ~ into_hash (Branch ch v) (nseq k) /\ ~ too_short (Branch ch v) (nseq k)) ->
  (forall ks, In ks kss -> ks <> []) ->
  ForallOrdPairs (fun ks ks' => forall d, ~ (begins d ks /\ begins d ks')) kss ->
  exists l, create_trie_subsets keccak pr (Branch ch v) kss = Ok (ROk l) /\
    Forall2 (fun ks s => create_trie_subset keccak pr (Branch ch v) ks = Ok (ROk s)) kss l.
Proof.
  intros keccak pr ch v kss K W F Kw H N P. eexists. split; [apply C26_exact_partial; assumption|].
  rewrite prune_each_indep.
  - rewrite map_map.
    assert (G : forall ks, In ks kss -> create_trie_subset keccak pr (Branch ch v) ks = Ok (ROk (prune keccak (map nseq ks) (Branch ch v)))).
    { intros ks I. rewrite Forall_forall in Kw. destruct (mark_all_ok pr (Branch ch v) ks (track (Branch ch v)) W (track_tracks _) (Kw _ I)) as (tr & E & _);
        [intros k J; apply (H ks k I J)|right; intros k J; apply (H ks k I J)|].
      destruct (subset_ok_of_marks keccak pr _ ks tr K W F E) as [s Es]. rewrite Es. f_equal. f_equal.
      apply (C24_exact keccak pr _ ks s K W F (Kw _ I)); [right; intros k J; apply (H ks k I J)|exact Es]. }
    clear - G. induction kss as [|ks kss IH]; cbn [map]; constructor; [apply G; left; reflexivity|apply IH; intros; apply G; right; assumption].
  - intros Ks I. apply in_map_iff in I. destruct I as (ks & <- & I). specialize (N _ I). destruct ks; [congruence|discriminate].
  - auto.
  - clear - P. induction P as [|ks kss A P IH]; cbn [map]; constructor; [|exact IH]. apply Forall_forall. intros K' I d. apply in_map_iff in I. destruct I as (ks' & <- & I).
    rewrite Forall_forall in A. specialize (A ks' I d). unfold begins in A.
    destruct (keys_under d (map nseq ks)) as [|r R] eqn:E1; [auto|]. destruct (keys_under d (map nseq ks')) as [|r' R'] eqn:E2; [auto|]. exfalso. apply A.
    assert (I1 : In r (keys_under d (map nseq ks))) by (rewrite E1; left; reflexivity). assert (I2 : In r' (keys_under d (map nseq ks'))) by (rewrite E2; left; reflexivity).
    apply keys_under_iff, in_map_iff in I1. apply keys_under_iff, in_map_iff in I2. destruct I1 as (k & Ek & Ik), I2 as (k' & Ek' & Ik'). split; [exists k, r|exists k', r']; auto.
Qed.
Example C26_example : exists ch v, ex_big = Branch ch v /\
  ForallOrdPairs (fun ks ks' => forall d, ~ (begins d ks /\ begins d ks')) [[K 4 0x5678; K 4 0x5699]; [K 4 0x1234]] /\
  create_trie_subsets keccak256 Debug ex_big [[K 4 0x5678; K 4 0x5699]; [K 4 0x1234]] =
  Ok (ROk [oks (create_trie_subset keccak256 Debug ex_big [K 4 0x5678; K 4 0x5699]); oks (create_trie_subset keccak256 Debug ex_big [K 4 0x1234])]).
Proof.
  exists (match ex_big with Branch ch _ => ch | _ => [] end), []. split; [vm_compute; reflexivity|]. split; [|vm_compute; reflexivity].
  constructor; [|constructor; [constructor|constructor]]. constructor; [|constructor]. intros d ((k & r & I & E) & (k' & r' & I' & E')).
  destruct I' as [<-|[]]. change (nseq (K 4 0x1234)) with [1;2;3;4] in E'. injection E' as <- _.
  destruct I as [<-|[<-|[]]]; [change (nseq (K 4 0x5678)) with [5;6;7;8] in E|change (nseq (K 4 0x5699)) with [5;6;9;9] in E]; discriminate.
Qed.

Print Assumptions C22_root_hash.
Print Assumptions C22_batch_root_hash.
Print Assumptions C23_requested.
Print Assumptions C23_other.
Print Assumptions C24_exact.
Print Assumptions C24_fixed_length.
Print Assumptions C24_order_irrelevant.
Print Assumptions C24_short_key_refuted.
Print Assumptions C25_short_key_refuted.
Print Assumptions C25_errors_partial.
Print Assumptions C25_fixed_length.
Print Assumptions C25_debug_exact.
Print Assumptions C25_error_key.
Print Assumptions C25_error_names.
Print Assumptions C26_refuted.
Print Assumptions C26_supersets_partial.
Print Assumptions C26_success_partial.
Print Assumptions C26_first_error_partial.
Print Assumptions C26_first_panic_partial.
Print Assumptions C26_first_list_partial.
Print Assumptions C26_exact_partial.
Print Assumptions C26_independent_partial.
