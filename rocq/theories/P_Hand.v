(** Property C77: a partial trie built by hand from values and hashes of subtrees. *)
From Coq Require Import Permutation.
From Verif Require Import Base Nibbles NibblesSpec NibblesFacts NibblesFacts2 NibblesFacts3 Trie TrieSpec TrieHistSpec TrieFacts TrieInsert TrieGet TrieDelete TrieUnique TrieIter TrieHist TrieObs Rlp YellowPaper Hashing Keccak HashSpec HashFacts KeccakFacts HideSpec HideFacts P_Trie P_Hash ItemsFacts Cache CacheSpec P_Cache HandSpec HandFacts.
From Verif Require Import YellowPaper HashSpec HandSpec.
Open Scope N_scope.

Lemma part_part keccak pr t k x : hash32 keccak -> wf 64 t -> fits t -> (part_of keccak pr t k x <-> part keccak t k x).
Proof.
  intros K W F. unfold part_of, part.
  assert (H : forall u, node_at t k u -> not_hash u -> hash_trie keccak pr u = Ok (keccak (RLP (item keccak u)))).
  { intros u N NH. destruct (node_at_wf _ _ _ N _ W) as (L & HL & Wu). rewrite (hash_trie_gen keccak K pr u L Wu ltac:(lia) (node_at_fits _ _ _ N F)).
    destruct u; try reflexivity. destruct NH. }
  split; (intros [Lk|X]; [left; exact Lk|right]).
  - destruct X as (u & h & N & NH & G & E & ->). rewrite (H u N NH) in E. injection E as <-. exists u. auto.
  - destruct X as (u & N & NH & G & ->). exists u, (keccak (RLP (item keccak u))). auto 8.
Qed.

Lemma describes_pentry keccak pr l t : wf 64 t -> canon t -> describes keccak pr l t -> Forall pentry l.
Proof.
  intros W C (F & _). apply Forall_forall. intros e I. rewrite Forall_forall in F. destruct (F e I) as [A B]. split; [exact A|].
  destruct B as [B|(u & h & _ & _ & _ & _ & ->)]; [|exact Logic.I]. destruct (snd e) as [v|h]; [|exact Logic.I]. cbn. intros ->.
  exact (stored_nonempty t _ (canon_shape _ C) B).
Qed.

(** Whoever builds a trie from a list that describes [t], in any order, gets the trie [t] with the subtrees hidden whose hashes
    are in the list. It has the root hash of [t], gives the values of the list, and holds nothing else. *)
Theorem C77_root : forall keccak pr t l,
  hash32 keccak -> wf 64 t -> canon t -> fits t -> describes keccak pr l t ->
  exists t', hides keccak t t' /\
    (forall l' pr', Permutation l l' -> from_iter pr' l' = Ok t') /\
    (forall pr', hash_trie keccak pr' t' = hash_trie keccak pr' t) /\
    (forall k v pr', In (k, Val v) l -> trie_get pr' t' k = Ok (Some v)) /\
    (forall k x, lk t' k = Some x <-> gives l k x).
Proof.
  intros keccak pr t l K W C F D. pose proof (describes_pentry _ _ _ _ W C D) as Pe. destruct D as (Fe & Ap & Cov).
  destruct (pick keccak t 64 (gives l) W C) as (t' & H & Lk).
  - intros k x (n & I & <-). rewrite Forall_forall in Fe. destruct (Fe _ I) as [_ P]. apply (part_part keccak pr); auto.
  - exact Cov.
  - intros j k x y. apply apart_same, Ap.
  - apply gives_dec.
  - pose proof (hides_wf _ _ _ _ H W) as W'. exists t'. split; [exact H|]. split; [|split; [|split]].
    + intros l' pr' Pm. destruct (apart_build pr' l') as (t1 & E1 & [W1 C1] & L1).
      { eapply Permutation_Forall; eassumption. } { eapply apart_perm; eassumption. }
      rewrite E1. f_equal. apply C17_canonical; auto; [eapply hides_canon; eassumption|].
      assert (Same : forall j x, lk t1 j = Some x <-> lk t' j = Some x).
      { intros j x. rewrite L1, Lk. unfold gives. split; intros (n & I & En); exists n; (split; [|exact En]); [eapply Permutation_in; [apply Permutation_sym; exact Pm|exact I]|eapply Permutation_in; eassumption]. }
      intros j. destruct (lk t1 j) as [x|] eqn:E; [symmetry; apply Same, E|]. destruct (lk t' j) as [x|] eqn:E'; [|reflexivity]. apply Same in E'. congruence.
    + intros pr'. apply C20_hiding_keeps_root; assumption.
    + intros k v pr' I. rewrite Forall_forall in Pe. destruct (Pe _ I) as [Hk _]. cbn [fst] in Hk. destruct (kwf_ex k Hk) as (q & -> & Eq & Hq & Lq).
      apply (get_found pr' t' 64); [exact W'|lia|]. apply Lk. exists (enc q). split; [exact I|exact Eq].
    + exact Lk.
Qed.
Print Assumptions C77_root.

(** The same for the trie that caches its hashes. *)
Theorem C77_cached : forall keccak pr t l l' h,
  hash32 keccak -> wf 64 t -> canon t -> fits t -> describes keccak pr l t -> Permutation l l' -> hash_trie keccak pr t = Ok h ->
  exists t', start keccak pr [New l'; HashOf 0] = Ok ([t'], [Done; Digest h]) /\ hides keccak t (erase t').
Proof.
  intros keccak pr t l l' h K W C F D P E. destruct (C77_root keccak pr t l K W C F D) as (t' & H & B & R & _).
  specialize (B l' pr P). specialize (R pr). rewrite E in R.
  destruct (C29_clones_partial keccak pr [New l'; HashOf 0] [t'] [Done; Digest h]) as (hs & S & M).
  - repeat constructor.
  - cbn [vrun vstep]. rewrite B. cbn [bind app]. unfold the. cbn [nth_error bind]. rewrite R. reflexivity.
  - destruct hs as [|x [|]]; try discriminate. injection M as M. exists x. rewrite M. auto.
Qed.
Print Assumptions C77_cached.

(** Nothing else gives the root of [t]: when a list of which no key is a prefix of another builds a trie with the root of the
    complete trie [t], then it describes [t], or it holds the root only, or two encodings of nodes have the same hash. *)
Theorem C77_only : forall keccak pr t l,
  hash32 keccak -> wf 64 t -> canon t -> fits t -> hash_free t ->
  Forall pentry l -> Forall (fun e => fits_val (snd e)) l -> apart l ->
  exists t', from_iter pr l = Ok t' /\
    (hash_trie keccak pr t' = hash_trie keccak pr t ->
     describes keccak pr l t \/
     (exists n h, l = [(n, HashV h)] /\ nseq n = [] /\ hash_trie keccak pr t = Ok h) \/
     collision keccak (encodings keccak t) (encodings keccak t')).
Proof.
  intros keccak pr t l K W C F HF Pe Fl Ap. destruct (apart_build pr l Pe Ap) as (t' & E & [W' C'] & Lk). exists t'. split; [exact E|]. intros R.
  assert (F' : fits t') by (apply (extend_fits pr l Empty t'); [exact Logic.I|exact Fl|exact E]).
  destruct (C40_partial_trie_binding keccak pr pr t t' K W W' F F' HF (eq_sym R)) as [H|[[Ht ->]|Co]]; [left| |auto].
  - split; [|split; [exact Ap|]].
    + apply Forall_forall. intros [n x] I. rewrite Forall_forall in Pe. destruct (Pe _ I) as [Hk _]. split; [exact Hk|].
      cbn [fst snd]. apply part_part; auto. apply (hides_part keccak t t'); [exact H|]. apply Lk. exists n. auto.
    + intros k x L. destruct (hides_lk keccak t t' k H) as [Z|(p & h & Z & P)].
      * left. apply Lk. congruence.
      * right. exists p, h. split; [apply Lk, Z|exact P].
  - right. left. pose proof (proj1 (Lk [] (HashV (root keccak t))) eq_refl) as (n & I & En).
    apply in_split in I. destruct I as (a & b & ->).
    assert (No : forall e, In e (a ++ b) -> False).
    { intros [m x] I. assert (G : gives (a ++ (n, HashV (root keccak t)) :: b) (nseq m) x).
      { exists m. split; [|reflexivity]. apply in_app_or in I. apply in_or_app. destruct I; [auto|right; right; assumption]. }
      apply in_app_or in I. destruct I as [I|I]; apply in_split in I; destruct I as (u & w & ->).
      - rewrite <- app_assoc in Ap. cbn [app] in Ap. destruct (Ap _ _ _ _ _ eq_refl) as [_ Z]. apply Z. cbn [fst]. rewrite En. exists (nseq m). reflexivity.
      - destruct (Ap _ _ _ _ _ eq_refl) as [Z _]. apply Z. cbn [fst]. rewrite En. exists (nseq m). reflexivity. }
    destruct a as [|e a]; [|destruct (No e); left; reflexivity]. destruct b as [|e b]; [|destruct (No e); left; reflexivity].
    exists n, (root keccak t). auto.
Qed.
Print Assumptions C77_only.

(** The size matters: with the hash of a smaller subtree the root is another one. *)
Theorem C77_small : forall pr, exists t l k u h,
  wf 64 t /\ canon t /\ fits t /\ from_iter Debug [(K 4 0x1234, Val [1]); (K 4 0x5678, Val [2])] = Ok t /\
  l = [(K 4 0x1234, Val [1]); (k, HashV h)] /\ node_at t (nseq k) u /\ not_hash u /\ len (RLP (item keccak256 u)) < 32 /\
  hash_trie keccak256 pr u = Ok h /\
  exists t', from_iter pr l = Ok t' /\ hash_trie keccak256 pr t' <> hash_trie keccak256 pr t.
Proof.
  intros pr. set (l := [(K 4 0x1234, Val [1]); (K 4 0x5678, Val [2])]). set (t := okn (from_iter Debug l)).
  assert (E : from_iter Debug l = Ok t) by (vm_compute; reflexivity).
  set (u := match t with Branch ch _ => child ch 5 | _ => Empty end).
  exists t, [(K 4 0x1234, Val [1]); (K 1 5, HashV (keccak256 (RLP (item keccak256 u))))], (K 1 5), u, (keccak256 (RLP (item keccak256 u))).
  apply and_assoc. split; [|split; [|split; [exact E|split; [reflexivity|split; [|split; [vm_compute; exact Logic.I|split; [vm_compute; reflexivity|split]]]]]]].
  - apply (extend_canon Debug l Empty); [constructor|constructor| |exact E]. repeat constructor; cbn; try (vm_compute; (reflexivity || (intro; discriminate))).
  - apply (extend_fits Debug l Empty) in E; [exact E|exact Logic.I|]. repeat constructor; cbn; try (vm_compute; (reflexivity || (intro; discriminate))).
  - change (nseq (K 1 5)) with [5]. assert (Q : exists ch v, t = Branch ch v /\ nth_error ch 5 = Some u) by (vm_compute; eexists _, _; split; reflexivity).
    destruct Q as (ch & v & -> & Q). apply na_branch with u; [exact Q|apply na_here].
  - destruct pr; vm_compute; reflexivity.
  - eexists. split; [destruct pr; vm_compute; reflexivity|destruct pr; vm_compute; discriminate].
Qed.
Print Assumptions C77_small.

(** /repo/examples/hash_nodes.rs. *)
Definition large (b : N) : list N := b :: repeat 255 32.
Definition ex_full_list : list (nibbles * val_or_hash) :=
  [(Nib 2 0x00, Val (large 1)); (Nib 2 0x01, Val (large 2)); (Nib 2 0x10, Val (large 3)); (Nib 2 0x11, Val (large 4))].
Definition ex_full : node := okn (from_iter Debug ex_full_list).
Definition ex_left : node := match ex_full with Branch ch _ => child ch 0 | _ => Empty end.
Definition ex_hand : list (nibbles * val_or_hash) :=
  [(Nib 1 0, HashV (keccak256 (RLP (item keccak256 ex_left)))); (Nib 2 0x10, Val (large 3)); (Nib 2 0x11, Val (large 4))].
Lemma apart_cons e l : apart l -> (forall e', In e' l -> ~ is_prefix (nseq (fst e)) (nseq (fst e')) /\ ~ is_prefix (nseq (fst e')) (nseq (fst e))) -> apart (e :: l).
Proof.
  intros H1 H2 [|z a] x b y c Q; cbn [app] in Q; injection Q as <- Q.
  - apply H2. rewrite Q. apply in_or_app. right. left. reflexivity.
  - exact (H1 a x b y c Q).
Qed.
Example C77_example : hash32 keccak256 /\ wf 64 ex_full /\ canon ex_full /\ fits ex_full /\ hash_free ex_full /\
  describes keccak256 Debug ex_hand ex_full /\ Forall pentry ex_hand /\ Forall (fun e => fits_val (snd e)) ex_hand.
Proof.
  split; [exact keccak256_hash32|]. assert (E : from_iter Debug ex_full_list = Ok ex_full) by (vm_compute; reflexivity).
  assert (Ents : entries ex_full = [([0; 0], Val (large 1)); ([0; 1], Val (large 2)); ([1; 0], Val (large 3)); ([1; 1], Val (large 4))]) by (vm_compute; reflexivity).
  assert (Wc : wf 64 ex_full /\ canon ex_full).
  { apply (extend_canon Debug ex_full_list Empty); [constructor|constructor| |exact E]. repeat constructor; cbn; try (vm_compute; (reflexivity || (intro; discriminate))). }
  assert (D : describes keccak256 Debug ex_hand ex_full).
  { split; [|split].
    - assert (Q : exists ch v, ex_full = Branch ch v /\ nth_error ch 0 = Some ex_left) by (vm_compute; eexists _, _; split; reflexivity).
      destruct Q as (ch & v & Q & Q').
      unfold ex_hand. constructor; [|constructor; [|constructor; [|constructor]]]; (split; [vm_compute; split; (reflexivity || (intro; discriminate))|]); cbn [fst snd]; [right|left; vm_compute; reflexivity..].
      exists ex_left, (keccak256 (RLP (item keccak256 ex_left))). change (nseq (Nib 1 0)) with [0].
      split; [rewrite Q; apply na_branch with ex_left; [exact Q'|apply na_here]|]. split; [vm_compute; exact Logic.I|]. split; [vm_compute; intro; discriminate|].
      split; [vm_compute; reflexivity|reflexivity].
    - unfold ex_hand. repeat apply apart_cons; try (intros [|? ?] ? ? ? ? Q; discriminate);
        intros e' I; repeat (destruct I as [<-|I]; [split; intros [s Es]; vm_compute in Es; destruct s; discriminate|]); destruct I.
    - intros k x L. apply entries_lk in L. rewrite Ents in L.
      destruct L as [L|[L|[L|[L|[]]]]]; injection L as <- <-.
      1,2: right; exists [0], (keccak256 (RLP (item keccak256 ex_left))); split; [exists (Nib 1 0); split; [left; reflexivity|reflexivity]|eexists; reflexivity].
      + left. exists (Nib 2 0x10). split; [right; left; reflexivity|reflexivity].
      + left. exists (Nib 2 0x11). split; [right; right; left; reflexivity|reflexivity]. }
  split; [apply Wc|]. split; [apply Wc|]. split; [|split; [|split; [exact D|split]]].
  - apply (extend_fits Debug ex_full_list Empty) in E; [exact E|exact Logic.I|]. repeat constructor; cbn; try (vm_compute; (reflexivity || (intro; discriminate))).
  - intros k h L. apply entries_lk in L. rewrite Ents in L. cbn [In] in L. intuition discriminate.
  - exact (describes_pentry _ _ _ _ (proj1 Wc) (proj2 Wc) D).
  - unfold ex_hand. constructor; [|constructor; [|constructor; [|constructor]]]; cbn [snd fits_val].
    + destruct (keccak256_hash32 (RLP (item keccak256 ex_left))) as [A B]. split; assumption.
    + split; [repeat constructor|vm_compute; reflexivity].
    + split; [repeat constructor|vm_compute; reflexivity].
Qed.
