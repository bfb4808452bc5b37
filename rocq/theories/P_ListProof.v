(** Property C83: excerpts of lists, and what the root of a list is good for. *)
From Coq Require Import Permutation.
From Verif Require Import Base Nibbles NibblesSpec NibblesFacts NibblesFacts2 NibblesFacts3 Trie TrieSpec TrieHistSpec TrieFacts TrieInsert TrieGet TrieDelete TrieUnique TrieIter TrieHist TrieObs InsertWf Rlp YellowPaper Hashing Keccak HashSpec HideSpec HashFacts KeccakFacts HideFacts HideDelete HideBind Subset SubsetSpec SubsetFacts SubsetFacts2 ReplaySpec ReplayFacts NeighbourSpec NeighbourFacts ReleaseSpec SubsetFacts3 ComposeFacts SmallFacts LeastSpec LeastFacts P_Trie P_Hash P_Subset P_Short P_Compose P_Small P_Replay P_Neighbour P_Least RefreshSpec P_Refresh FreeSpec FreeFacts P_Free PartialSpec P_Partial
  TypeFacts2 Serde Json JsonSpec JsonText JsonTextSpec TypeSpec TypeFacts WitnessSpec P_Json P_JsonText P_Witness EthProofSpec P_EthProof OrderSpec OrderFacts P_Order ListSpec ListFacts P_List ListProofSpec ListProofFacts.
Open Scope N_scope.

Lemma pushes_run l : forall l0, Forall value_ok l -> index_ok (length l0 + length l) ->
  list_ops_ok l0 (map Push l) /\ Forall list_op_bytes (map Push l) /\ list_run l0 (map Push l) = (l0 ++ l, map (fun _ => ODone) l).
Proof.
  induction l as [|v l IH]; intros l0 F Ix; cbn [map list_ops_ok list_run length] in *.
  - rewrite app_nil_r. repeat split. constructor.
  - inversion F as [|? ? (V1 & V2 & V3) F']; subst. cbn [list_step fst list_op_ok]. destruct (IH (l0 ++ [v]) F' ltac:(rewrite app_length; cbn [length]; unfold index_ok in *; lia)) as (A & B & C).
    rewrite C. split; [split; [split; [exact V1|unfold index_ok in *; lia]|exact A]|]. split; [constructor; [split; assumption|exact B]|]. rewrite <- app_assoc. reflexivity.
Qed.
Lemma combined_entries l : (forall i, (i < length l)%nat -> index_ok i) -> index_entries l (combine (map (fun i => enc (index_nibbles i)) (seq 0 (length l))) l).
Proof.
  intros Ix. split.
  - assert (G : forall (a : list nibbles) (b : list (list N)), length a = length b -> map snd (combine a b) = b).
    { induction a as [|x a IH]; intros [|y b] E; try discriminate; [reflexivity|]. cbn. f_equal. apply IH. cbn in E. lia. }
    apply G. rewrite map_length, seq_length. reflexivity.
  - assert (G : forall n, (forall i, (i < n + length l)%nat -> index_ok i) -> Forall2 (fun i (e : nibbles * list N) => index_key i = Ok (fst e)) (seq n (length l)) (combine (map (fun i => enc (index_nibbles i)) (seq n (length l))) l)).
    { clear Ix. induction l as [|v l IH]; intros n Ix; cbn [length seq map combine]; constructor; [cbn [fst]; apply index_key_enc, Ix; cbn [length]; lia|]. apply IH. intros i Hi. apply Ix. cbn [length]. lia. }
    exact (G 0%nat Ix).
Qed.
Lemma list_stores pr l t : a_list l -> list_trie pr l t -> stores t l /\ fits t.
Proof.
  intros [F Ix] (es & Es & E). destruct (pushes_run l [] F Ix) as (O & B & R). cbn [app] in R.
  destruct (C68_contents pr (map Push l) l (map (fun _ => ODone) l) es es O R Es (Permutation_refl _)) as (t' & its & E1 & E2 & _). assert (t' = t) by congruence. subst t'.
  destruct (P_List.run_ok pr (map Push l) Empty [] stores_empty O) as (t' & R' & St & Ft). rewrite R in *. cbn [fst snd length] in *. assert (t' = t) by congruence. subst t'.
  split; [exact St|]. apply Ft; [exact Logic.I|exact B].
Qed.
Lemma stores_hash keccak pr l t : hash32 keccak -> stores t l -> fits t -> hash_trie keccak pr t = Ok (yp_root keccak (index_pairs l)).
Proof. intros HK S F. pose proof S as (W & C & _). apply C19_canonical; auto. apply stores_lists, S. Qed.
Lemma stores_inv' t l : stores t l -> exists m, inv indices t m /\ tells m l.
Proof. intros (W & C & _ & m & H & T). exists m. split; [eapply stores_inv; eauto|exact T]. Qed.
Lemma stores_findable m l i : tells m l -> index_ok i -> findable m (index_nibbles i).
Proof.
  intros [T1 T2] Hi. destruct (Nat.lt_ge_cases i (length l)) as [L|L].
  - left. rewrite (T1 i Hi). apply nth_error_Some, L.
  - right. intros j Hj. destruct (T2 j Hj) as (x & Lx & Hx & ->). apply index_mono; [lia|exact Hi].
Qed.
Lemma stores_reach t l i : stores t l -> index_ok i -> ~ too_short t (index_nibbles i).
Proof. intros S Hi. destruct (stores_inv' t l S) as (m & I & T). apply (findable_reach indices t m _ I), (stores_findable m l i T Hi). Qed.
Lemma stores_get pr t l i : stores t l -> index_ok i -> trie_get pr t (enc (index_nibbles i)) = Ok (nth_error l i).
Proof.
  intros S Hi. destruct (step_ok pr t l (At i) S Hi) as (t' & E & _). cbn [indexed_step list_step fst snd] in E. rewrite (index_key_enc i Hi) in E. cbn [bind] in E.
  destruct (trie_get pr t (enc (index_nibbles i))) as [w|]; [|discriminate]. cbn [bind] in E. congruence.
Qed.

(** A trie with the root of the list, read from any text and checked, only says what is so about the entries of the list; or two different byte strings with the
    same hash are known. *)
Theorem C83_entry : forall keccak pr l t limit text t' i v,
  hash32 keccak -> a_list l -> list_trie pr l t -> index_ok i ->
  vouched keccak pr limit text (yp_root keccak (index_pairs l)) t' -> says_at pr t' i v ->
  v = nth_error l i \/ collision keccak (encodings keccak t) (encodings keccak t').
Proof.
  intros keccak pr l t limit text t' i v HK A T Hi V (k & Ek & Sy). destruct (list_stores pr l t A T) as [St Ft].
  destruct (vouched_ok _ _ _ _ _ _ V) as (W' & F' & Sh' & E'). rewrite (index_key_enc i Hi) in Ek. injection Ek as <-. destruct (index_kwf i Hi) as [Kw Ks].
  pose proof St as (W & C & _ & m & H & T1 & T2).
  assert (HF : hash_free t) by (intros j h Q; rewrite H in Q; destruct (m j); discriminate).
  assert (E : hash_trie keccak pr t = hash_trie keccak pr t') by (rewrite E'; apply stores_hash; auto).
  destruct v as [v|].
  - destruct (C40_get_sound keccak pr pr pr t t' _ v HK W W' Ft F' HF E Sy) as [G|G]; [left|right; exact G]. rewrite (stores_get pr t l i St Hi) in G. congruence.
  - destruct Sy as [t1 Sy]. pose proof (tdelete pr t' _ W' Sh' Kw) as P. rewrite Sy, Ks in P. destruct P as (_ & P1 & P2 & P3).
    destruct (C40_contents keccak pr pr t t' (index_nibbles i) HK W W' Ft F' HF E) as [G|[(p & h & G1 & G2)|G]]; [left| |right; exact G].
    + rewrite P3, H, (T1 i Hi) in G. destruct (nth_error l i); [discriminate|reflexivity].
    + destruct (P1 (hop_prefix t' _ p h G1 G2)).
Qed.
Print Assumptions C83_entry.

(** So the length of the list can be read off, too. *)
Theorem C83_length : forall keccak pr l t limit text t' n v,
  hash32 keccak -> a_list l -> list_trie pr l t -> index_ok (S n) ->
  vouched keccak pr limit text (yp_root keccak (index_pairs l)) t' -> says_at pr t' n (Some v) -> says_at pr t' (S n) None ->
  length l = S n \/ collision keccak (encodings keccak t) (encodings keccak t').
Proof.
  intros keccak pr l t limit text t' n v HK A T Hi V S1 S2.
  destruct (C83_entry keccak pr l t limit text t' n _ HK A T ltac:(unfold index_ok in *; lia) V S1) as [G1|G]; [|right; exact G].
  destruct (C83_entry keccak pr l t limit text t' (S n) _ HK A T Hi V S2) as [G2|G]; [|right; exact G]. left.
  symmetry in G2. apply nth_error_None in G2. assert (n < length l)%nat by (apply nth_error_Some; congruence). lia.
Qed.
Print Assumptions C83_length.

Definition ix_keys (ix : list nat) : list nibbles := map (fun i => enc (index_nibbles i)) ix.
Lemma keys_ix ix ks : Forall index_ok ix -> Forall2 (fun i k => index_key i = Ok k) ix ks -> ks = ix_keys ix.
Proof. intros F H. induction H as [|i k ix ks E H IH]; [reflexivity|]. inversion F; subst. rewrite index_key_enc in E by assumption. injection E as <-. cbn. f_equal. auto. Qed.
Lemma ix_in ix i : In i ix -> In (enc (index_nibbles i)) (ix_keys ix).
Proof. intros I. exact (in_map _ ix i I). Qed.
Lemma ix_kwf ix : Forall index_ok ix -> Forall kwf (ix_keys ix).
Proof. intros F. unfold ix_keys. rewrite Forall_map. eapply Forall_impl; [|exact F]. intros i Hi. apply index_kwf, Hi. Qed.
Lemma ix_indices ix : Forall index_ok ix -> forall k, In k (ix_keys ix) -> indices (nseq k).
Proof. intros F k I. apply in_map_iff in I as (i & <- & I). rewrite Forall_forall in F. specialize (F i I). destruct (index_kwf i F) as [_ ->]. exists i. auto. Qed.
Lemma ix_reach t l ix : stores t l -> Forall index_ok ix -> forall k, In k (ix_keys ix) -> ~ too_short t (nseq k).
Proof. intros S F k I. apply in_map_iff in I as (i & <- & I). rewrite Forall_forall in F. specialize (F i I). destruct (index_kwf i F) as [_ ->]. exact (stores_reach t l i S F). Qed.
Lemma stores_free t l : stores t l -> free_trie indices t.
Proof. intros S. destruct (stores_inv' t l S) as (m & I & _). exact (inv_free indices t m I). Qed.
Lemma stores_subset keccak pr t l ix : hash32 keccak -> stores t l -> fits t -> Forall index_ok ix -> exists s, create_trie_subset keccak pr t (ix_keys ix) = Ok (ROk s).
Proof.
  intros HK S Ft F. eexists. apply subset_any; auto; [apply S|exact (ix_kwf ix F)|]. intros k Ik. split; [|intros _; apply (ix_reach t l ix S F k Ik)].
  intros (p & h & Ep & P). destruct S as (_ & _ & _ & m & Ho & _). rewrite Ho in Ep. destruct (m p); discriminate.
Qed.

Section Replay.
Variable keccak : list N -> list N.
Hypothesis HK : hash32 keccak.
Variable pr : profile.
Variable ix : list nat.
Hypothesis Fx : Forall index_ok ix.
Definition lfollows (t s : node) : Prop := follows keccak indices (ix_keys ix) t s.

Lemma subset_lfollows t l s : stores t l -> fits t -> create_trie_subset keccak pr t (ix_keys ix) = Ok (ROk s) -> lfollows t s.
Proof.
  intros S Ft E. split; [|split; [exact Ft|]].
  - apply (subset_flike keccak pr indices t (ix_keys ix) s HK (stores_free t l S) Ft (ix_kwf ix Fx)); [|exact E]. right. exact (ix_reach t l ix S Fx).
  - exact (subset_hides keccak pr t (ix_keys ix) s HK (proj1 S) Ft E).
Qed.
Lemma lfollows_op t s o t1 x : lfollows t s -> op_on (ix_keys ix) o -> match o with ODelete k => held_neighbour t (ix_keys ix) (nseq k) | _ => True end -> get_reaches t o ->
  trie_op pr t o = Ok (t1, x) -> exists s1, trie_op pr s o = Ok (s1, x) /\ lfollows t1 s1.
Proof.
  intros L O Hn G E. destruct (follows_some keccak indices indices_pf (ix_keys ix) (ix_kwf ix Fx) (ix_indices ix Fx) pr t s o L O G) as [A _]. destruct (A t1 x E) as [s1 E1].
  exists s1. split; [exact E1|]. exact (proj2 (follows_op keccak HK indices indices_pf (ix_keys ix) (ix_kwf ix Fx) (ix_indices ix Fx) pr t s o t1 x s1 x L O Hn G E E1)).
Qed.
Lemma list_held t l : stores t l -> l <> [] -> incl (needs l Pop) ix -> held_neighbour t (ix_keys ix) (index_nibbles (length l - 1)).
Proof.
  intros S NE I. destruct S as (W & C & Ix & m & H & T1 & T2). assert (L : (0 < length l)%nat) by (destruct l; [congruence|cbn; lia]). pose proof (Ix (length l - 1)%nat ltac:(lia)) as Hn.
  assert (St : forall k, stored t k -> exists j, (j < length l)%nat /\ index_ok j /\ k = index_nibbles j) by (intros k Sk; apply (holds_stored t m k H) in Sk; exact (T2 k Sk)).
  right. destruct (Nat.eq_dec (length l) 1) as [E1|N1].
  - left. intros k Sk. destruct (St k Sk) as (j & Lj & _ & ->). replace j with (length l - 1)%nat by lia. reflexivity.
  - right. set (j := next_to (length l - 1)). assert (Lj : (j < length l - 1)%nat) by (unfold j, next_to; destruct (Nat.eqb_spec (length l - 1) 128); lia).
    assert (Hj : index_ok j) by (apply Ix; lia). destruct (nth_error l j) as [v|] eqn:Ev; [|apply nth_error_None in Ev; lia].
    assert (Lk : lk t (index_nibbles j) = Some (Val v)) by (rewrite H, (T1 j Hj), Ev; reflexivity).
    exists (enc (index_nibbles j)), v. destruct (index_kwf j Hj) as [_ ->]. split; [apply ix_in, I; cbn [needs]; right; left; reflexivity|]. split; [exact Lk|].
    split; [unfold stored; congruence|]. split; [intros Q; apply index_inj in Q; [lia|assumption..]|]. intros k Sk Nk. destruct (St k Sk) as (i & Li & Hi & ->).
    apply next_to_lcp; [|exact Hn]. assert (i <> (length l - 1)%nat) by congruence. lia.
Qed.
Lemma lstep t l s o : stores t l -> lfollows t s -> list_op_ok l o -> list_op_bytes o -> incl (needs l o) ix ->
  exists t1 s1, indexed_step pr (s, length l) o = Ok ((s1, length (fst (list_step l o))), snd (list_step l o)) /\ stores t1 (fst (list_step l o)) /\ lfollows t1 s1.
Proof.
  intros S L O B I. destruct (step_ok pr t l o S O) as (t1 & E & S1 & _). exists t1.
  assert (Hn : forall i, In i (needs l o) -> index_ok i) by (intros i Hi; rewrite Forall_forall in Fx; apply Fx, I, Hi).
  destruct o as [v|i v| |i]; cbn [indexed_step list_step fst snd list_op_ok list_op_bytes needs] in *.
  - pose proof (Hn _ (or_introl eq_refl)) as Hi. rewrite (index_key_enc _ Hi) in *. cbn [bind] in *. destruct (trie_insert pr t (enc (index_nibbles (length l))) (Val v)) as [t0|] eqn:Et; [|discriminate].
    cbn [bind] in E. injection E as -> El.
    destruct (lfollows_op t s (OInsert (enc (index_nibbles (length l))) v) t1 ODone L) as (s1 & E1 & L1); [split; [apply ix_in, I; left; reflexivity|destruct O, B; repeat split; assumption]|exact Logic.I|exact Logic.I|cbn [trie_op]; rewrite Et; reflexivity|].
    cbn [trie_op] in E1. destruct (trie_insert pr s (enc (index_nibbles (length l))) (Val v)) as [s0|]; [|discriminate]. cbn [bind] in *. injection E1 as ->.
    exists s1. split; [congruence|]. auto.
  - pose proof (Hn _ (or_introl eq_refl)) as Hi. rewrite (index_key_enc _ Hi) in *. cbn [bind] in *. destruct (trie_insert pr t (enc (index_nibbles i)) (Val v)) as [t0|] eqn:Et; [|discriminate].
    cbn [bind] in E. injection E as -> El.
    destruct (lfollows_op t s (OInsert (enc (index_nibbles i)) v) t1 ODone L) as (s1 & E1 & L1); [split; [apply ix_in, I; left; reflexivity|destruct O, B; repeat split; assumption]|exact Logic.I|exact Logic.I|cbn [trie_op]; rewrite Et; reflexivity|].
    cbn [trie_op] in E1. destruct (trie_insert pr s (enc (index_nibbles i)) (Val v)) as [s0|]; [|discriminate]. cbn [bind] in *. injection E1 as ->.
    exists s1. split; [congruence|]. auto.
  - pose proof (Hn _ (or_introl eq_refl)) as Hi. rewrite (index_key_enc _ Hi) in *. cbn [bind] in *. destruct (trie_delete pr t (enc (index_nibbles (length l - 1)))) as [[t0 w]|] eqn:Et; [|discriminate].
    cbn [bind] in E. injection E as -> El Ew.
    destruct (lfollows_op t s (ODelete (enc (index_nibbles (length l - 1)))) t1 (OValue w) L) as (s1 & E1 & L1);
      [apply ix_in, I; left; reflexivity|destruct (index_kwf _ Hi) as [_ ->]; exact (list_held t l S O I)|exact Logic.I|cbn [trie_op]; rewrite Et; reflexivity|].
    cbn [trie_op] in E1. destruct (trie_delete pr s (enc (index_nibbles (length l - 1)))) as [[s0 w0]|]; [|discriminate]. cbn [bind] in *. injection E1 as -> ->.
    exists s1. split; [congruence|]. auto.
  - rewrite (index_key_enc _ O) in *. cbn [bind] in *. destruct (trie_get pr t (enc (index_nibbles i))) as [w|] eqn:Et; [|discriminate].
    cbn [bind] in E. injection E as -> Ew.
    destruct (lfollows_op t1 s (OGet (enc (index_nibbles i))) t1 (OValue w) L) as (s1 & E1 & L1);
      [apply ix_in, I; left; reflexivity|exact Logic.I|cbn [get_reaches]; destruct (index_kwf _ O) as [_ ->]; exact (stores_reach t1 l i S O)|cbn [trie_op]; rewrite Et; reflexivity|].
    cbn [trie_op] in E1. destruct (trie_get pr s (enc (index_nibbles i))) as [w0|]; [|discriminate]. cbn [bind] in *. injection E1 as -> ->.
    exists s1. split; [congruence|]. auto.
Qed.
Lemma lrun ops : forall t l s, stores t l -> lfollows t s -> list_ops_ok l ops -> Forall list_op_bytes ops -> incl (needs_all l ops) ix ->
  exists t1 s1, indexed_run pr (s, length l) ops = Ok ((s1, length (fst (list_run l ops))), snd (list_run l ops)) /\ stores t1 (fst (list_run l ops)) /\ lfollows t1 s1.
Proof.
  induction ops as [|o ops IH]; intros t l s S L O B I; cbn [indexed_run list_run list_ops_ok needs_all] in *; [exists t, s; auto|]. destruct O as [Oo Os]. inversion B as [|? ? Bo Bs]; subst.
  destruct (lstep t l s o S L Oo Bo ltac:(intros i Hi; apply I, in_app_iff; left; exact Hi)) as (t1 & s1 & E1 & S1 & L1). rewrite E1. cbn [bind].
  assert (I' : incl (needs_all (fst (list_step l o)) ops) ix) by (intros i Hi; apply I, in_app_iff; right; exact Hi).
  destruct (list_step l o) as [l1 x]. cbn [fst snd] in *. destruct (IH t1 l1 s1 S1 L1 Os Bs I') as (t2 & s2 & E2 & S2 & L2). rewrite E2. cbn [bind].
  destruct (list_run l1 ops) as [l2 xs]. cbn [fst snd] in *. exists t2, s2. auto.
Qed.
Lemma lfollows_hash t l s : stores t l -> lfollows t s -> hash_trie keccak pr s = Ok (yp_root keccak (index_pairs l)).
Proof.
  intros S (L & Ft & H). rewrite <- (stores_hash keccak pr l t HK S Ft). apply C20_hiding_keeps_root; auto. apply S.
Qed.
End Replay.

(** The excerpt of a list for any indices, inside the list or beyond it, can be taken; its texts are accepted, and it says about these indices what is so. *)
Theorem C83_honest : forall keccak pr l t ix ks,
  hash32 keccak -> a_list l -> list_trie pr l t -> Forall index_ok ix -> Forall2 (fun i k => index_key i = Ok k) ix ks ->
  exists s, create_trie_subset keccak pr t ks = Ok (ROk s) /\
    vouched keccak pr None (to_string (serialize s)) (yp_root keccak (index_pairs l)) s /\
    vouched keccak pr None (to_string_pretty (serialize s)) (yp_root keccak (index_pairs l)) s /\
    forall i, In i ix -> says_at pr s i (nth_error l i).
Proof.
  intros keccak pr l t ix ks HK A T Fx E. destruct (list_stores pr l t A T) as [S Ft]. rewrite (keys_ix ix ks Fx E) in *. clear E.
  destruct (stores_subset keccak pr t l ix HK S Ft Fx) as [s Es]. exists s. split; [exact Es|]. pose proof (subset_lfollows keccak HK pr ix Fx t l s S Ft Es) as L.
  pose proof (lfollows_hash keccak HK pr ix t l s S L) as Eh. pose proof L as (_ & _ & H). pose proof S as (W & C & _ & m & Ho & T1 & T2).
  pose proof (hides_wf keccak t 64 s H W) as Ws. pose proof (hides_fits keccak HK t s H Ft) as Fs.
  pose proof (wf_type s 64 Ws (le_n _) Fs) as Ts. destruct (C62_roundtrip s Ts) as [R1 R2].
  assert (Ck : checked 64 s = true) by (apply (checked_wf s 64 (le_n _) Ts); auto).
  assert (Sh : shaped s = true) by (apply shaped_shape, (hides_shape keccak t s H), canon_shape, C).
  split; [repeat (split; [assumption|]); assumption|]. split; [repeat (split; [assumption|]); assumption|].
  intros i Ii. assert (Hi : index_ok i) by (rewrite Forall_forall in Fx; apply Fx, Ii). exists (enc (index_nibbles i)). split; [apply index_key_enc, Hi|]. destruct (index_kwf i Hi) as [Kw Ks].
  destruct (nth_error l i) as [v|] eqn:Ev.
  - destruct (lfollows_op keccak HK pr ix Fx t s (OGet (enc (index_nibbles i))) t (OValue (Some v)) L (ix_in ix i Ii) Logic.I) as (s1 & E1 & _).
    + cbn [get_reaches]. rewrite Ks. exact (stores_reach t l i S Hi).
    + cbn [trie_op]. rewrite (stores_get pr t l i S Hi), Ev. reflexivity.
    + cbn [trie_op] in E1. destruct (trie_get pr s (enc (index_nibbles i))); [|discriminate]. cbn [bind] in E1. congruence.
  - destruct (inv_op pr indices t m (ODelete (enc (index_nibbles i))) indices_pf (stores_inv t l m Ho (conj T1 T2) W C)) as (t1 & E1 & _).
    { split; [exact Kw|]. rewrite Ks. exists i. auto. }
    cbn [spec_op snd] in E1. rewrite Ks, (T1 i Hi), Ev in E1.
    destruct (lfollows_op keccak HK pr ix Fx t s (ODelete (enc (index_nibbles i))) t1 (OValue None) L (ix_in ix i Ii)) as (s1 & E2 & _); [|exact Logic.I|exact E1|].
    + left. rewrite Ks. intros v Q. rewrite Ho, (T1 i Hi), Ev in Q. discriminate.
    + cbn [trie_op] in E2. destruct (trie_delete pr s (enc (index_nibbles i))) as [[s0 w]|]; [|discriminate]. cbn [bind] in E2. exists s0. congruence.
Qed.
Print Assumptions C83_honest.

(** On the excerpt alone the program of C68 goes on as with the whole list, if the excerpt was taken for the indices that are needed: the answers are those of the
    list, and the root hash at the end is the root of the list at the end. *)
Theorem C83_replay : forall keccak pr l t ix ks s ops l' xs,
  hash32 keccak -> a_list l -> list_trie pr l t -> Forall index_ok ix -> Forall2 (fun i k => index_key i = Ok k) ix ks ->
  create_trie_subset keccak pr t ks = Ok (ROk s) ->
  list_ops_ok l ops -> Forall list_op_bytes ops -> incl (needs_all l ops) ix -> list_run l ops = (l', xs) ->
  exists s', indexed_run pr (s, length l) ops = Ok ((s', length l'), xs) /\ hash_trie keccak pr s' = Ok (yp_root keccak (index_pairs l')).
Proof.
  intros keccak pr l t ix ks s ops l' xs HK A T Fx E Es O B I R. destruct (list_stores pr l t A T) as [S Ft]. rewrite (keys_ix ix ks Fx E) in *. clear E.
  pose proof (subset_lfollows keccak HK pr ix Fx t l s S Ft Es) as L.
  destruct (lrun keccak HK pr ix Fx ops t l s S L O B I) as (t1 & s1 & E1 & S1 & L1). rewrite R in *. cbn [fst snd] in *. exists s1. split; [exact E1|].
  exact (lfollows_hash keccak HK pr ix t1 l' s1 S1 L1).
Qed.
Print Assumptions C83_replay.

Fixpoint tcalls (n : nat) (ops : list list_op) : list op :=
  match ops with
  | Push v :: ops' => OInsert (enc (index_nibbles n)) v :: tcalls (S n) ops'
  | Put i v :: ops' => OInsert (enc (index_nibbles i)) v :: tcalls n ops'
  | _ => []
  end.
Lemma tcalls_run pr ops : forall l t t1 n1 xs, (forall i, (i < length l)%nat -> index_ok i) -> Forall only_writes ops -> list_ops_ok l ops ->
  (indexed_run pr (t, length l) ops = Ok ((t1, n1), xs) -> trie_ops pr t (tcalls (length l) ops) = Ok (t1, xs) /\ n1 = length (fst (list_run l ops)) /\ xs = snd (list_run l ops)).
Proof.
  induction ops as [|o ops IH]; intros l t t1 n1 xs Ix Fw O E; cbn [indexed_run tcalls list_run list_ops_ok] in *.
  - injection E as <- <- <-. auto.
  - inversion Fw as [|? ? Wo Ws]; subst. destruct O as [Oo Os]. destruct o as [v|i v| |i]; try contradiction; cbn [indexed_step list_op_ok list_step fst] in *.
    + destruct Oo as [_ Hi]. rewrite (index_key_enc _ Hi) in E. cbn [bind trie_ops trie_op] in *. destruct (trie_insert pr t (enc (index_nibbles (length l))) (Val v)) as [t0|]; [|discriminate]. cbn [bind] in *.
      assert (El : S (length l) = length (l ++ [v])) by (rewrite app_length; cbn; lia). rewrite El in E |- *.
      destruct (indexed_run pr (t0, length (l ++ [v])) ops) as [[[t2 n2] ys]|] eqn:E2; [|discriminate]. cbn [bind] in E. injection E as -> -> <-.
      destruct (IH (l ++ [v]) t0 t1 n1 ys) as (E3 & -> & ->); [|assumption..|].
      * intros j Hj. rewrite app_length in Hj. cbn in Hj. destruct (Nat.eq_dec j (length l)) as [->|]; [exact Hi|apply Ix; lia].
      * rewrite E3. cbn [bind]. destruct (list_run (l ++ [v]) ops). auto.
    + destruct Oo as [_ Li]. rewrite (index_key_enc _ (Ix i Li)) in E. cbn [bind trie_ops trie_op] in *. destruct (trie_insert pr t (enc (index_nibbles i)) (Val v)) as [t0|]; [|discriminate]. cbn [bind] in *.
      rewrite <- (put_length l i v) in E |- *.
      destruct (indexed_run pr (t0, length (put l i v)) ops) as [[[t2 n2] ys]|] eqn:E2; [|discriminate]. cbn [bind] in E. injection E as -> -> <-.
      destruct (IH (put l i v) t0 t1 n1 ys) as (E3 & -> & ->); [rewrite put_length; exact Ix|assumption..|].
      rewrite E3. cbn [bind]. destruct (list_run (put l i v) ops). auto.
Qed.
Lemma tcalls_write ops : forall l, (forall i, (i < length l)%nat -> index_ok i) -> Forall only_writes ops -> list_ops_ok l ops -> Forall list_op_bytes ops -> Forall op_write (tcalls (length l) ops).
Proof.
  induction ops as [|o ops IH]; intros l Ix Fw O B; cbn [tcalls list_ops_ok] in *; [constructor|].
  inversion Fw as [|? ? Wo Ws]; subst. inversion B as [|? ? Bo Bs]; subst. destruct O as [Oo Os]. destruct o as [v|i v| |i]; try contradiction; cbn [list_op_ok list_step fst list_op_bytes] in *.
  - destruct Oo as [Nv Hi]. constructor; [destruct (index_kwf _ Hi) as [Kw _]; split; [exact Kw|split; [exact Nv|exact Bo]]|]. replace (S (length l)) with (length (l ++ [v])) by (rewrite app_length; cbn; lia).
    apply IH; try assumption. intros j Hj. rewrite app_length in Hj. cbn in Hj. destruct (Nat.eq_dec j (length l)) as [->|]; [exact Hi|apply Ix; lia].
  - destruct Oo as [Nv Li]. constructor; [destruct (index_kwf _ (Ix i Li)) as [Kw _]; split; [exact Kw|split; [exact Nv|exact Bo]]|]. rewrite <- (put_length l i v).
    apply IH; try assumption. rewrite put_length. exact Ix.
Qed.
Lemma tcalls_visible pr ops : forall n t, collapses_visible pr t (tcalls n ops).
Proof. induction ops as [|[v|i v| |i] ops IH]; intros n t; cbn [tcalls collapses_visible]; auto. Qed.

(** Somebody who knows the root and the length of the list and was given a trie by somebody else can compute the next root: if appending and overwriting entries on
    that trie does not panic, its root hash is the root of the changed list, or two different byte strings with the same hash are known. *)
Theorem C83_next_root : forall keccak pr l t limit text t' ops l' xs t1 n1 ys,
  hash32 keccak -> a_list l -> list_trie pr l t -> vouched keccak pr limit text (yp_root keccak (index_pairs l)) t' ->
  list_ops_ok l ops -> Forall list_op_bytes ops -> Forall only_writes ops -> list_run l ops = (l', xs) ->
  indexed_run pr (t', length l) ops = Ok ((t1, n1), ys) ->
  n1 = length l' /\ (hash_trie keccak pr t1 = Ok (yp_root keccak (index_pairs l')) \/ collision keccak (encodings keccak t) (encodings keccak t')).
Proof.
  intros keccak pr l t limit text t' ops l' xs t1 n1 ys HK A T V O B Fw R E. destruct (list_stores pr l t A T) as [S Ft]. pose proof S as (W & C & Ix & m & H & _).
  destruct (tcalls_run pr ops l t' t1 n1 ys Ix Fw O E) as (E1 & N1 & _). rewrite R in N1. cbn [fst] in N1. split; [exact N1|].
  assert (HF : hash_free t) by (intros j h Q; rewrite H in Q; destruct (m j); discriminate).
  pose proof V as (Lx & Ck & _ & Eh).
  destruct (C66_replay_partial keccak pr pr pr limit text t t' (tcalls (length l) ops) t1 ys HK W (canon_shape _ C) Ft HF Lx Ck) as [(r & Er & Hr)|G]; [| | | |left|right; exact G].
  - rewrite Eh. apply stores_hash; auto.
  - apply tcalls_write; assumption.
  - apply tcalls_visible.
  - exact E1.
  - destruct (P_List.run_ok pr ops t l S O) as (r' & E' & S' & F'). rewrite R in *. cbn [fst snd] in *.
    destruct (tcalls_run pr ops l t r' _ _ Ix Fw O E') as (E2 & _). assert (r' = r) by congruence. subst r'. rewrite Hr. apply stores_hash; auto.
Qed.
Print Assumptions C83_next_root.

(** A list of 130 entries, so that both kinds of keys occur; the excerpt for five indices, one of them beyond the list. Two entries are removed, one is appended, one
    is overwritten, and entries are looked up. *)
Definition ex_entries (n : nat) : list (list N) := map (fun i => repeat (N.of_nat i) 40) (seq 0 n).
Definition ex_ix : list nat := [0; 5; 128; 129; 130]%nat.
Definition ex_ix_keys : list nibbles := [K 2 0x80; K 2 0x05; K 4 0x8180; K 4 0x8181; K 4 0x8182].
Definition ex_excerpt_ops : list list_op := [Pop; Pop; At 5; Push (repeat 7 50); Put 5 [1; 2; 3]; At 130; At 128].
Definition entries_of (l : list (list N)) : list (nibbles * list N) := combine (map (fun i => enc (index_nibbles i)) (seq 0 (length l))) l.
Lemma ex_len n : length (ex_entries n) = n.
Proof. unfold ex_entries. rewrite map_length. apply seq_length. Qed.
Lemma ex_list_ok n : (n <= 200)%nat -> a_list (ex_entries n).
Proof.
  intros H. split; [|unfold index_ok, ex_entries; rewrite map_length, seq_length; lia]. unfold ex_entries. rewrite Forall_map. apply Forall_forall. intros i I. apply in_seq in I.
  split; [discriminate|]. split; [|unfold len; rewrite repeat_length; reflexivity]. apply Forall_forall. intros x X. apply repeat_spec in X. lia.
Qed.
Lemma ex_list_trie pr n t : (n <= 200)%nat -> from_iter pr (vals (entries_of (ex_entries n))) = Ok t -> list_trie pr (ex_entries n) t.
Proof.
  intros H E. exists (entries_of (ex_entries n)). split; [|exact E]. assert (L : length (ex_entries n) = n) by (unfold ex_entries; rewrite map_length; apply seq_length).
  assert (Ix : forall i, (i < length (ex_entries n))%nat -> index_ok i) by (intros i Hi; unfold index_ok; lia).
  exact (combined_entries (ex_entries n) Ix).
Qed.
Definition excerpt_of (n : nat) (ks : list nibbles) : option (node * node) :=
  match from_iter Debug (vals (entries_of (ex_entries n))) with
  | Ok t => match create_trie_subset keccak256 Debug t ks with Ok (ROk s) => Some (t, s) | _ => None end
  | Panic => None
  end.
Lemma excerpt_inv n ks t s : excerpt_of n ks = Some (t, s) -> from_iter Debug (vals (entries_of (ex_entries n))) = Ok t /\ create_trie_subset keccak256 Debug t ks = Ok (ROk s).
Proof.
  unfold excerpt_of. destruct (from_iter Debug (vals (entries_of (ex_entries n)))) as [t0|]; [|intros Q; discriminate Q].
  destruct (create_trie_subset keccak256 Debug t0 ks) as [[s0|]|] eqn:Es; intros Q; try discriminate Q. injection Q as -> ->. auto.
Qed.
Example C83_example : a_list (ex_entries 130) /\ Forall index_ok ex_ix /\ Forall2 (fun i k => index_key i = Ok k) ex_ix ex_ix_keys /\
  list_ops_ok (ex_entries 130) ex_excerpt_ops /\ Forall list_op_bytes ex_excerpt_ops /\ incl (needs_all (ex_entries 130) ex_excerpt_ops) ex_ix /\
  exists t s, list_trie Debug (ex_entries 130) t /\ create_trie_subset keccak256 Debug t ex_ix_keys = Ok (ROk s) /\ trie_get Debug s (K 2 0x07) = Ok None /\ trie_get Debug t (K 2 0x07) = Ok (Some (repeat 7 40)).
Proof.
  split; [apply ex_list_ok; lia|]. split; [unfold ex_ix; repeat (constructor; [unfold index_ok; cbn; lia|]); constructor|].
  split; [unfold ex_ix, ex_ix_keys; repeat (constructor; [vm_compute; reflexivity|]); constructor|].
  split; [unfold ex_excerpt_ops; cbn [list_ops_ok list_op_ok]|].
  { assert (L : length (ex_entries 130) = 130%nat) by reflexivity. repeat match goal with |- _ /\ _ => split end; try exact Logic.I; try discriminate; try (vm_compute; reflexivity).
    all: apply Nat.ltb_lt; vm_compute; reflexivity. }
  split; [unfold ex_excerpt_ops; repeat (constructor; [cbn [list_op_bytes]; first [exact Logic.I|split; [repeat (constructor; [reflexivity|]); constructor|reflexivity]]|]); constructor|].
  split; [intros i Hi; vm_compute in Hi; unfold ex_ix; cbn [In]; tauto|].
  assert (B : match excerpt_of 130 ex_ix_keys with Some (t, s) => match trie_get Debug s (K 2 0x07) with Ok None => true | _ => false end | None => false end = true) by (vm_compute; reflexivity).
  destruct (excerpt_of 130 ex_ix_keys) as [[t s]|] eqn:Ex; [|discriminate B]. apply excerpt_inv in Ex as [Et Es]. exists t, s. split; [apply ex_list_trie; [lia|exact Et]|]. split; [exact Es|].
  destruct (trie_get Debug s (K 2 0x07)) as [[|]|]; try discriminate B. split; [reflexivity|].
  destruct (list_stores Debug _ t (ex_list_ok 130 ltac:(lia)) (ex_list_trie Debug 130 t ltac:(lia) Et)) as [St _]. 
  assert (Hi : index_ok 7) by reflexivity. pose proof (stores_get Debug t _ 7%nat St Hi) as G. replace (enc (index_nibbles 7)) with (K 2 0x07) in G by reflexivity. rewrite G. f_equal.
Qed.

Lemma popped keccak pr l t t1 n ys : hash32 keccak -> a_list l -> list_trie pr l t -> l <> [] -> indexed_run pr (t, length l) [Pop] = Ok ((t1, n), ys) ->
  hash_trie keccak pr t1 = Ok (yp_root keccak (index_pairs (removelast l))).
Proof.
  intros HK A T NE E. destruct (list_stores pr l t A T) as [St Ft]. destruct (step_ok pr t l Pop St NE) as (t2 & E3 & S2 & F2).
  cbn [indexed_run] in E. rewrite E3 in E. cbn [bind] in E. injection E as <- _ _. exact (stores_hash keccak pr _ t2 HK S2 (F2 Ft Logic.I)).
Qed.
Lemma predecessor_run :
  match excerpt_of 129 [K 2 0x7f; K 4 0x8180] with
  | Some (t, s) => match indexed_run Debug (s, 129%nat) [Pop], indexed_run Debug (t, 129%nat) [Pop] with
                   | Ok ((s1, n1), xs), Ok ((t1, n2), ys) =>
                       match hash_trie keccak256 Debug s1, hash_trie keccak256 Debug t1 with
                       | Ok a, Ok b => negb (key_eqb a b) && Nat.eqb n1 128 && match xs with [OValue (Some v)] => key_eqb v (repeat 128 40) | _ => false end
                       | _, _ => false
                       end
                   | _, _ => false
                   end
  | None => false
  end = true.
Proof. vm_compute. reflexivity. Qed.
(** The entry before the last one is not always what is needed to remove the last one: with entries 127 and 128 of 129 entries nothing panics, but the root is wrong. *)
Theorem C83_predecessor_refuted : exists l t ks s s' v,
  a_list l /\ list_trie Debug l t /\ length l = 129%nat /\ Forall2 (fun i k => index_key i = Ok k) [127; 128]%nat ks /\
  create_trie_subset keccak256 Debug t ks = Ok (ROk s) /\
  indexed_run Debug (s, length l) [Pop] = Ok ((s', 128%nat), [OValue (Some v)]) /\ nth_error l 128 = Some v /\
  hash_trie keccak256 Debug s' <> Ok (yp_root keccak256 (index_pairs (removelast l))).
Proof.
  pose proof predecessor_run as B.
  destruct (excerpt_of 129 [K 2 0x7f; K 4 0x8180]) as [[t s]|] eqn:Ex; [|discriminate B]. apply excerpt_inv in Ex as [Et Es].
  destruct (indexed_run Debug (s, 129%nat) [Pop]) as [[[s1 n1] xs]|] eqn:E1; [|discriminate B]. destruct (indexed_run Debug (t, 129%nat) [Pop]) as [[[t1 n2] ys]|] eqn:E2; [|discriminate B].
  destruct (hash_trie keccak256 Debug s1) as [a|] eqn:H1; [|discriminate B]. destruct (hash_trie keccak256 Debug t1) as [b|] eqn:H2; [|discriminate B].
  rewrite !andb_true_iff, negb_true_iff in B. destruct B as [[B1 B2] B3]. apply Nat.eqb_eq in B2. subst n1.
  destruct xs as [|[|[v|]] [|]]; try discriminate B3. assert (v = repeat 128 40) by (destruct (key_eqb_spec v (repeat 128 40)); [assumption|discriminate B3]). subst v.
  assert (A : a_list (ex_entries 129)) by (apply ex_list_ok; lia). assert (T : list_trie Debug (ex_entries 129) t) by (apply ex_list_trie; [lia|exact Et]).
  exists (ex_entries 129), t, [K 2 0x7f; K 4 0x8180], s, s1, (repeat 128 40). split; [exact A|]. split; [exact T|]. rewrite (ex_len 129). split; [reflexivity|].
  split; [repeat (constructor; [vm_compute; reflexivity|]); constructor|]. split; [exact Es|]. split; [exact E1|]. split; [unfold ex_entries; rewrite nth_error_map, (nth_error_nth' _ 0%nat), seq_nth by (rewrite ?seq_length; lia); reflexivity|].
  assert (NE : ex_entries 129 <> []) by (intros Q; apply (f_equal (@length _)) in Q; rewrite (ex_len 129) in Q; discriminate Q).
  rewrite <- (ex_len 129) in E2 at 1. rewrite H1, <- (popped keccak256 Debug _ t t1 n2 ys keccak256_32 A T NE E2), H2. intros Q. apply (f_equal (fun r => match r with Ok x => x | Panic => [] end)) in Q. rewrite Q in B1.
  destruct (key_eqb_spec b b) as [_|Nb]; [discriminate B1|exact (Nb eq_refl)].
Qed.
Print Assumptions C83_predecessor_refuted.
