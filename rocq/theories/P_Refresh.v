(** Property C80: an excerpt can be kept up to date without the complete trie. *)
From Verif Require Import Base Nibbles NibblesSpec NibblesFacts NibblesFacts2 NibblesFacts3 Trie TrieSpec TrieHistSpec TrieFacts TrieInsert TrieGet TrieDelete TrieUnique TrieIter TrieHist TrieObs InsertWf Rlp YellowPaper Hashing Keccak HashSpec HideSpec HashFacts KeccakFacts HideFacts HideBind Subset SubsetSpec SubsetFacts SubsetFacts2 ReplaySpec ReplayFacts NeighbourSpec NeighbourFacts ReleaseSpec SubsetFacts3 ComposeFacts SmallFacts LeastSpec LeastFacts P_Trie P_Hash P_Subset P_Short P_Compose P_Small P_Replay P_Neighbour P_Least RefreshSpec.
Open Scope N_scope.

Section R.
Variable n : nat.
Variable ks : list nibbles.
Hypothesis Kw : Forall kwf ks.
Hypothesis Kn : forall k, In k ks -> length (nseq k) = n.
Definition same_hashes (t t1 : node) : Prop := forall p h, lk t1 p = Some (HashV h) <-> lk t p = Some (HashV h).

Lemma updated_same t t1 k e : updated t t1 k e -> ~ hash_on_path t k -> (forall h, e <> Some (HashV h)) -> same_hashes t t1.
Proof.
  intros U N He p h. rewrite (U p). destruct (key_eqb_spec k p) as [->|]; [|reflexivity]. split; intros E; exfalso; [exact (He h E)|].
  apply N. exists p, h. split; [exact E|exists []; rewrite app_nil_r; reflexivity].
Qed.

Lemma same_trans a b c : same_hashes a b -> same_hashes b c -> same_hashes a c.
Proof. intros A B p h. rewrite (B p h). apply A. Qed.

Lemma insert_same pr t k v t1 : fixed_trie n t -> In k ks -> v <> [] -> trie_insert pr t k (Val v) = Ok t1 -> fixed_trie n t1 /\ same_hashes t t1.
Proof.
  intros Fx I Hv E. assert (Hk : kwf k) by (rewrite Forall_forall in Kw; auto).
  destruct (fixed_insert n pr t k v Fx Hk (Kn k I) Hv) as [[_ Q]|(N & t' & Q & U & F1)]; [congruence|]. assert (t' = t1) by congruence. subst t'.
  split; [exact F1|]. eapply updated_same; eauto. discriminate.
Qed.

Lemma op_same pr t o t1 x : fixed_trie n t -> op_on ks o -> trie_op pr t o = Ok (t1, x) -> fixed_trie n t1 /\ same_hashes t t1.
Proof.
  intros Fx O E. destruct o as [k v|l|k|k]; cbn [op_on trie_op] in *.
  - destruct O as (I & Hv & _). destruct (trie_insert pr t k (Val v)) as [t2|] eqn:E1; [|discriminate]. cbn [bind] in E. injection E as <- _. eapply insert_same; eauto.
  - destruct (trie_extend pr t _) as [t2|] eqn:E1; [|discriminate]. cbn [bind] in E. injection E as <- _. clear x.
    revert t Fx E1. induction O as [|[k v] l (I & Hv & _) O IH]; intros t Fx E1; cbn [map trie_extend fst snd] in *.
    + injection E1 as <-. split; [exact Fx|intros p h; reflexivity].
    + destruct (trie_insert pr t k (Val v)) as [t3|] eqn:E2; [|discriminate]. cbn [bind] in E1.
      destruct (insert_same pr t k v t3 Fx I Hv E2) as [F3 S3]. destruct (IH t3 F3 E1) as [F2 S2]. split; [exact F2|]. eapply same_trans; eauto.
  - assert (Hk : kwf k) by (rewrite Forall_forall in Kw; auto). destruct (fixed_delete n pr t k Fx Hk (Kn k O)) as [[_ Q]|(N & t' & Q & U & F1)]; rewrite Q in E; [discriminate|].
    cbn [bind] in E. injection E as <- _. split; [exact F1|]. eapply updated_same; eauto. discriminate.
  - destruct (trie_get pr t k); [|discriminate]. cbn [bind] in E. injection E as <- _. split; [exact Fx|intros p h; reflexivity].
Qed.

Lemma ops_same pr ops : forall t t1 xs, fixed_trie n t -> Forall (op_on ks) ops -> trie_ops pr t ops = Ok (t1, xs) -> fixed_trie n t1 /\ same_hashes t t1.
Proof.
  induction ops as [|o ops IH]; intros t t1 xs Fx F E; cbn [trie_ops] in E.
  - injection E as <- _. split; [exact Fx|intros p h; reflexivity].
  - inversion F as [|? ? Fo Fl]; subst. destruct (trie_op pr t o) as [[t2 x]|] eqn:E1; [|discriminate]. cbn [bind] in E.
    destruct (trie_ops pr t2 ops) as [[t3 ys]|] eqn:E2; [|discriminate]. cbn [bind] in E. injection E as <- _.
    destruct (op_same pr t o t2 x Fx Fo E1) as [F2 S2]. destruct (IH t2 t3 ys F2 Fl E2) as [F3 S3]. split; [exact F3|]. eapply same_trans; eauto.
Qed.
End R.

(** After the same operations, the subset of the excerpt is the subset of the complete trie, for the same keys or some of them. *)
Theorem C80_refresh : forall keccak pr n t ks s ops s1 xs,
  hash32 keccak -> fixed_trie n t -> fits t -> Forall kwf ks -> (forall k, In k ks -> length (nseq k) = n) ->
  create_trie_subset keccak pr t ks = Ok (ROk s) -> Forall (op_on ks) ops -> neighbours_held pr t ks ops ->
  trie_ops pr s ops = Ok (s1, xs) ->
  exists t1, trie_ops pr t ops = Ok (t1, xs) /\
    forall ks', incl ks' ks -> exists r, create_trie_subset keccak pr t1 ks' = Ok (ROk r) /\ create_trie_subset keccak pr s1 ks' = Ok (ROk r).
Proof.
  intros keccak pr n t ks s ops s1 xs H32 Fx Ft Kw Kn E F NB E1. pose proof (subset_like keccak pr n t ks s H32 Fx Ft Kw Kn E) as L.
  pose proof (subset_hides keccak pr t ks s H32 (proj1 Fx) Ft E) as H.
  destruct (like_roots keccak pr n ks t s ops s1 xs H32 Kw Kn L Ft H F (held_merges keccak pr n ks ops H32 Kw Kn t s L Ft H F NB) E1) as (t1 & Et & H1 & _).
  exists t1. split; [exact Et|]. intros ks' I.
  destruct (ops_same n ks Kw Kn pr ops t t1 xs Fx F Et) as [Fx1 S1].
  destruct (ops_same n ks Kw Kn pr ops s s1 xs (proj1 (proj2 L)) F E1) as [_ S2].
  assert (Ft1 : fits t1) by (apply (ops_fits pr ops t t1 xs Ft); [eapply Forall_impl; [|exact F]; intros o; apply op_value_ok|exact Et]).
  assert (NS : forall u k, fixed_trie n u -> In k ks -> ~ too_short u (nseq k)).
  { intros u k Fu Ik Q. pose proof Fu as (W & C & _). destruct (fixed_not_short u 64 (nseq k) (canon_shape _ C) W Q) as (j & Sj & Lj). apply (fixed_stored n _ _ Fu) in Sj. specialize (Kn k Ik). lia. }
  assert (Kw' : Forall kwf ks') by (rewrite Forall_forall in *; intros k Ik; apply Kw, I, Ik).
  destruct (subset_any_inv keccak pr t ks s H32 (proj1 Fx) Ft Kw E) as [G Es].
  exists (prune keccak (map (fun k => filled t1 (nseq k)) ks') t1).
  assert (Et1 : create_trie_subset keccak pr t1 ks' = Ok (ROk (prune keccak (map (fun k => filled t1 (nseq k)) ks') t1))).
  { apply subset_any; auto; [exact (proj1 Fx1)|]. intros k Ik. split; [|intros _; apply NS; auto].
    intros (p & h & Lp & P). apply (proj1 (G k (I k Ik))). exists p, h. split; [apply S1, Lp|exact P]. }
  split; [exact Et1|].
  refine (proj1 (C78_least keccak pr t1 s1 ks' _ H32 (proj1 Fx1) (canon_shape _ (proj1 (proj2 Fx1))) Ft1 Kw' H1 _ _ Et1)); [right; intros k Ik; apply NS; auto|].
  intros k p h Ik Lp P. apply S1. apply S2 in Lp.
  rewrite Forall_forall in Kw. destruct (kwf_ex k (Kw k (I k Ik))) as (l & _ & El & Hl & _). rewrite El in P.
  rewrite Es in Lp. apply (prune_hop keccak t 64 (map (fun k => filled t (nseq k)) ks) l p h (proj1 Fx)); auto.
  apply in_map_iff. exists k. split; [|apply I, Ik]. rewrite <- El. apply (C24_filled t k (proj1 Fx) (Kw k (I k Ik))), NS; auto.
Qed.
Print Assumptions C80_refresh.

(** In rounds: the follower sees the same outputs and root hashes as the holder of the complete trie, panics exactly when the
    holder does, and ends with the subset of the holder's trie. *)
Theorem C80_rounds : forall keccak pr n rs t ks s,
  hash32 keccak -> fixed_trie n t -> fits t -> Forall kwf ks -> (forall k, In k ks -> length (nseq k) = n) ->
  create_trie_subset keccak pr t ks = Ok (ROk s) -> rounds_ok pr t ks rs ->
  match holder keccak pr t rs with
  | Panic => follower keccak pr s rs = Panic
  | Ok (t', l) => exists s', follower keccak pr s rs = Ok (s', l) /\ create_trie_subset keccak pr t' (last_keys ks rs) = Ok (ROk s')
  end.
Proof.
  intros keccak pr n rs. induction rs as [|[ops ks'] rs IH]; intros t ks s H32 Fx Ft Kw Kn E R; cbn [holder follower].
  - exists s. split; [reflexivity|exact E].
  - destruct R as (F & NB & I & R). pose proof (C42_outputs keccak pr n t ks s ops) as O.
    destruct (trie_ops pr t ops) as [[t1 xs]|] eqn:Et.
    + destruct (proj1 (O xs H32 Fx Ft Kw Kn E F) (ex_intro _ t1 eq_refl)) as (s1 & Es). rewrite Es. cbn [bind].
      destruct (C80_refresh keccak pr n t ks s ops s1 xs H32 Fx Ft Kw Kn E F NB Es) as (t1' & Et' & Q). assert (t1' = t1) by congruence. subst t1'.
      destruct (C65_replay keccak pr n t ks s ops s1 xs H32 Fx Ft Kw Kn E F NB Es) as (t1' & Et'' & Rh). assert (t1' = t1) by congruence. subst t1'.
      destruct (ops_same n ks Kw Kn pr ops t t1 xs Fx F Et) as [Fx1 _].
      assert (Ft1 : fits t1) by (apply (ops_fits pr ops t t1 xs Ft); [eapply Forall_impl; [|exact F]; intros o; apply op_value_ok|exact Et]).
      rewrite Rh, (hash_trie_ok keccak H32 pr t1 (proj1 Fx1) Ft1). cbn [bind]. destruct (Q ks' I) as (r & Er & Es1). rewrite Es1. cbn [bind].
      specialize (IH t1 ks' r H32 Fx1 Ft1).
      assert (Kw' : Forall kwf ks') by (rewrite Forall_forall in *; intros k Ik; apply Kw, I, Ik).
      specialize (IH Kw' (fun k Ik => Kn k (I k Ik)) Er (R t1 xs eq_refl)).
      assert (La : last_keys ks (@cons round (ops, ks') rs) = last_keys ks' rs).
      { unfold last_keys. cbn [map snd]. clear. revert ks ks'. induction rs as [|[o q] rs IH]; intros ks ks'; [reflexivity|]. cbn [map snd last] in *. destruct rs; [reflexivity|]. apply (IH ks ks'). }
      rewrite La. destruct (holder keccak pr t1 rs) as [[t' l]|]; cbn [bind].
      * destruct IH as (s' & -> & Ec). cbn [bind]. exists s'. auto.
      * rewrite IH. reflexivity.
    + cbn [bind]. destruct (trie_ops pr s ops) as [[s1 xs]|] eqn:Es; [|reflexivity].
      exfalso. destruct (proj2 (O xs H32 Fx Ft Kw Kn E F) (ex_intro _ s1 eq_refl)) as (t1 & Q). discriminate.
Qed.
Print Assumptions C80_rounds.

(** ** From the beginning *)
Definition shows (keccak : list N -> list N) (a : list out * list N) (b : list out * kvmap) : Prop :=
  fst a = fst b /\ forall J, lists_map J (snd b) -> snd a = yp_root keccak J.

Lemma requested_rounds keccak pr n rs : forall t m ks, hash32 keccak -> inv (fun k => length k = N.to_nat n) t m -> fits t -> Forall kwf ks -> (forall k, In k ks -> count k = n) ->
  rounds_requested m ks rs -> rounds_ok pr t ks rs /\ exists t' l, holder keccak pr t rs = Ok (t', l) /\ Forall2 (shows keccak) l (map_rounds m rs).
Proof.
  induction rs as [|[ops ks'] rs IH]; intros t m ks H32 Iv Ft Kw Kn R; cbn [rounds_ok holder map_rounds].
  - split; [exact Logic.I|]. exists t, []. split; [reflexivity|constructor].
  - destruct R as (F & NB & I & R).
    assert (Fo : Forall (op_fixed n) ops).
    { eapply Forall_impl; [|exact F]. rewrite Forall_forall in Kw. intros [k v|l|k|k]; cbn [op_on op_fixed].
      - intros (J & A & _). auto.
      - apply Forall_impl. intros e (J & A & _). auto.
      - auto.
      - auto. }
    destruct (inv_ops pr (fun k => length k = N.to_nat n) ops t m (fixed_pf n) Iv) as (t1 & Et & Iv1).
    { eapply Forall_impl; [|exact Fo]. intros o. apply fixed_ok. }
    assert (Ft1 : fits t1) by (apply (ops_fits pr ops t t1 _ Ft) in Et; [exact Et|]; eapply Forall_impl; [|exact F]; intros o; apply op_value_ok).
    assert (Kw' : Forall kwf ks') by (rewrite Forall_forall in *; intros k Ik; apply Kw, I, Ik).
    destruct (IH t1 _ ks' H32 Iv1 Ft1 Kw' (fun k Ik => Kn k (I k Ik)) R) as (R1 & t' & l & Eh & Sl).
    split.
    + split; [exact F|]. split; [exact (requested_held pr n ks ops Kw Kn t m Iv F NB)|]. split; [exact I|]. intros t2 xs Q. rewrite Et in Q. injection Q as <- _. exact R1.
    + pose proof Iv1 as (W1 & C1 & Ho1 & _). rewrite Et. cbn [bind]. rewrite (hash_trie_ok keccak H32 pr t1 W1 Ft1). cbn [bind]. rewrite Eh. cbn [bind].
      exists t'. eexists. split; [reflexivity|]. constructor; [|exact Sl]. split; [reflexivity|]. cbn [snd]. intros J HJ.
      assert (Q : hash_trie keccak pr t1 = Ok (yp_root keccak J)) by (apply C19_canonical; auto; eapply lists_holds; [exact HJ|exact Ho1]).
      rewrite (hash_trie_ok keccak H32 pr t1 W1 Ft1) in Q. congruence.
Qed.

Theorem C80_history : forall keccak pr n ops0 ks rs,
  hash32 keccak -> Forall (op_fixed n) ops0 -> Forall op_bytes ops0 -> Forall kwf ks -> (forall k, In k ks -> count k = n) ->
  rounds_requested (fst (spec_ops kv_empty ops0)) ks rs ->
  exists t s s' l, trie_ops pr Empty ops0 = Ok (t, snd (spec_ops kv_empty ops0)) /\ create_trie_subset keccak pr t ks = Ok (ROk s) /\
    follower keccak pr s rs = Ok (s', l) /\
    Forall2 (fun a b => fst a = fst b /\ forall J, lists_map J (snd b) -> snd a = yp_root keccak J) l (map_rounds (fst (spec_ops kv_empty ops0)) rs).
Proof.
  intros keccak pr n ops0 ks rs H32 F0 B0 Kw Kn R. set (m := fst (spec_ops kv_empty ops0)) in *.
  destruct (C42_history keccak pr n ops0 ks H32 F0 B0 Kw Kn) as (t & s & E & Es & _).
  destruct (inv_ops pr (fun k => length k = N.to_nat n) ops0 Empty kv_empty (fixed_pf n) (inv_empty _)) as (t' & E' & Iv).
  { eapply Forall_impl; [|exact F0]. intros o. apply fixed_ok. }
  assert (t' = t) by congruence. subst t'. fold m in Iv. pose proof Iv as (W & C & Ho & HU).
  assert (Fx : fixed_trie (N.to_nat n) t).
  { split; [exact W|]. split; [exact C|]. split; intros k v Q; rewrite Ho in Q; destruct (m k) eqn:Em; try discriminate. apply HU. congruence. }
  assert (Ft : fits t) by (apply (ops_fits pr ops0 Empty t (snd (spec_ops kv_empty ops0))); [exact Logic.I|exact B0|exact E]).
  destruct (requested_rounds keccak pr n rs t m ks H32 Iv Ft Kw Kn R) as (R1 & t1 & l & Eh & Sl).
  assert (Kn' : forall k, In k ks -> length (nseq k) = N.to_nat n) by (intros k I; rewrite length_nseq, (Kn k I); reflexivity).
  pose proof (C80_rounds keccak pr (N.to_nat n) rs t ks s H32 Fx Ft Kw Kn' Es R1) as Q. rewrite Eh in Q. destruct Q as (s' & Ef & _).
  exists t, s, s', l. auto.
Qed.
Print Assumptions C80_history.

(** Two rounds over [ex_pair]: after the first only 0x5678 is needed. *)
Definition ex_rounds : list round := [([ODelete (K 4 0x5678); OInsert (K 4 0x5678) (big 4)], ex_pair); ([OInsert (K 4 0x5699) (big 5)], [K 4 0x5678]); ([OGet (K 4 0x5678); OInsert (K 4 0x5678) (big 6)], [])].
Example C80_example : Forall (op_fixed 4) ex_ops0 /\ Forall op_bytes ex_ops0 /\ Forall kwf ex_pair /\ (forall k, In k ex_pair -> count k = 4) /\
  rounds_requested (fst (spec_ops kv_empty ex_ops0)) ex_pair ex_rounds.
Proof.
  destruct C65_example as (A & B & C & D & _). split; [exact A|]. split; [exact B|]. split; [exact C|]. split; [exact D|].
  assert (V : forall x, x < 256 -> value_ok (big x)) by (intros x Hx; split; [discriminate|]; split; [unfold big; cbn [repeat]; repeat (constructor; [exact Hx|]); constructor|reflexivity]).
  unfold ex_rounds. cbn [rounds_requested]. repeat match goal with |- _ /\ _ => split end.
  all: try exact Logic.I.
  all: try (intros k Ik; cbn [In ex_pair] in *; tauto).
  all: try (repeat (apply Forall_cons; [cbn [op_on ex_pair In]; first [split; [auto|apply V; reflexivity]|auto]|]); apply Forall_nil).
  - cbn [neighbours_requested]. split; [|split; exact Logic.I]. right. right. exists (K 4 0x5699). split; [right; left; reflexivity|].
    unfold ex_ops0. cbn [spec_ops spec_op fst]. change (nseq (K 4 0x1234)) with [1;2;3;4]. change (nseq (K 4 0x5678)) with [5;6;7;8]. change (nseq (K 4 0x5699)) with [5;6;9;9].
    split; [vm_compute; discriminate|]. split; [discriminate|].
    intros j. rewrite !kv_set_some. intros [[-> _]|[_ [[-> _]|[_ [[-> _]|[_ Q]]]]]] Nj; try (apply Nat.leb_le; vm_compute; reflexivity); unfold kv_empty in *; congruence.
  - cbn [neighbours_requested]. split; exact Logic.I.
  - cbn [neighbours_requested]. split; [exact Logic.I|split; exact Logic.I].
Qed.
