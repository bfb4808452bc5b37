(** Property C42: a subset is enough to replay operations on its keys. [keccak] is any function with 32-byte outputs. *)
From Verif Require Import Base Nibbles NibblesSpec NibblesFacts NibblesFacts2 NibblesFacts3 Trie TrieSpec TrieHistSpec TrieFacts TrieInsert TrieGet TrieDelete TrieUnique TrieIter TrieHist TrieObs InsertWf YellowPaper Hashing Keccak HashSpec HideSpec HashFacts KeccakFacts HideFacts HideDelete Subset SubsetSpec SubsetFacts SubsetFacts2 P_Trie P_Hash P_Subset ReplaySpec ReplayFacts.
Open Scope N_scope.

(** ** Subsets look like the full trie along their keys *)
Lemma subset_like keccak pr n t ks s : hash32 keccak -> fixed_trie n t -> fits t -> Forall kwf ks -> (forall k, In k ks -> length (nseq k) = n) ->
  create_trie_subset keccak pr t ks = Ok (ROk s) -> like n ks t s.
Proof.
  intros H32 Fx Ft Kw Kn E. pose proof Fx as (W & C & _).
  assert (NS : forall k, In k ks -> ~ too_short t (nseq k)).
  { intros k I S. destruct (fixed_not_short t 64 (nseq k) (canon_shape _ C) W S) as (j & Sj & Lj).
    apply (fixed_stored n t j Fx) in Sj. rewrite (Kn k I) in Lj. lia. }
  apply (like_hides keccak n ks t s Fx (subset_hides keccak pr t ks s H32 W Ft E)).
  rewrite (C24_exact keccak pr t ks s H32 W Ft Kw (or_intror NS) E). intros k I (p & h & Ep & P).
  exists p, h. split; [|exact P]. rewrite Forall_forall in Kw. destruct (kwf_ex k (Kw k I)) as (l & _ & Es & Hl & _).
  apply (prune_hop keccak t 64 (map nseq ks) (nseq k) p h W); auto; [apply in_map; exact I|rewrite Es; exact Hl].
Qed.

Lemma subsets_like keccak pr n t kss l : hash32 keccak -> fixed_trie n t -> fits t ->
  Forall (Forall kwf) kss -> (forall ks k, In ks kss -> In k ks -> length (nseq k) = n) ->
  create_trie_subsets keccak pr t kss = Ok (ROk l) -> Forall2 (fun ks s => like n ks t s /\ hides keccak t s) kss l.
Proof.
  intros H32 Fx Ft Kw Kn E. pose proof Fx as (W & C & _).
  pose proof (subsets_tracked keccak pr t kss _ l H32 W Ft (track_tracks t) E) as A. clear E.
  induction A as [|ks s kss l (H & _ & s1 & E1 & H1) A IH]; constructor.
  - inversion Kw; subst. split; [|exact H]. apply (like_hides keccak n ks t s Fx H). intros k I HP.
    destruct (subset_like keccak pr n t ks s1 H32 Fx Ft ltac:(assumption) (fun k => Kn ks k (or_introl eq_refl)) E1) as (_ & _ & L).
    apply (L k I). exact (hides_hop keccak s s1 _ H1 HP).
  - inversion Kw; subst. apply IH; [assumption|]. intros ks' k I J. exact (Kn ks' k (or_intror I) J).
Qed.

(** ** Outputs *)
Lemma like_outputs pr n ks t s ops xs : Forall kwf ks -> (forall k, In k ks -> length (nseq k) = n) -> like n ks t s -> Forall (op_on ks) ops ->
  ((exists t1, trie_ops pr t ops = Ok (t1, xs)) <-> (exists s1, trie_ops pr s ops = Ok (s1, xs))).
Proof.
  intros Kw Kn L F. split; intros [x E].
  - destruct (like_ops n ks Kw Kn pr ops t s x xs L F E) as (y & Ey & _). eauto.
  - destruct (like_ops n ks Kw Kn pr ops s t x xs (like_sym n ks t s L) F E) as (y & Ey & _). eauto.
Qed.

(** Any history of inserts, extends, deletes and gets on the requested keys succeeds on the subset exactly when it succeeds
    on the full trie, and returns the same. The full trie may itself contain hash nodes. *)
Theorem C42_outputs : forall keccak pr n t ks s ops xs,
  hash32 keccak -> fixed_trie n t -> fits t -> Forall kwf ks -> (forall k, In k ks -> length (nseq k) = n) ->
  create_trie_subset keccak pr t ks = Ok (ROk s) -> Forall (op_on ks) ops ->
  ((exists t1, trie_ops pr t ops = Ok (t1, xs)) <-> (exists s1, trie_ops pr s ops = Ok (s1, xs))).
Proof.
  intros keccak pr n t ks s ops xs H32 Fx Ft Kw Kn E F. apply (like_outputs pr n ks); auto. exact (subset_like keccak pr n t ks s H32 Fx Ft Kw Kn E).
Qed.

(** The same for each subset of a batch. *)
Theorem C42_batch_outputs : forall keccak pr n t kss l,
  hash32 keccak -> fixed_trie n t -> fits t ->
  Forall (Forall kwf) kss -> (forall ks k, In ks kss -> In k ks -> length (nseq k) = n) ->
  create_trie_subsets keccak pr t kss = Ok (ROk l) ->
  Forall2 (fun ks s => forall ops xs, Forall (op_on ks) ops ->
     ((exists t1, trie_ops pr t ops = Ok (t1, xs)) <-> (exists s1, trie_ops pr s ops = Ok (s1, xs)))) kss l.
Proof.
  intros keccak pr n t kss l H32 Fx Ft Kw Kn E. pose proof (subsets_like keccak pr n t kss l H32 Fx Ft Kw Kn E) as A. clear E.
  induction A as [|ks s kss l (H & _) A IH]; constructor.
  - intros ops xs F. inversion Kw; subst. apply (like_outputs pr n ks); auto. intros k I. exact (Kn ks k (or_introl eq_refl) I).
  - inversion Kw; subst. apply IH; [assumption|]. intros ks' k I J. exact (Kn ks' k (or_intror I) J).
Qed.

(** ** Root hashes *)
Lemma op_value_ok ks o : op_on ks o -> op_bytes o.
Proof.
  destruct o as [k v|l|k|k]; cbn [op_on op_bytes]; auto.
  - intros (_ & _ & A). exact A.
  - apply Forall_impl. intros e (_ & _ & A). exact A.
Qed.

Lemma hides_ops keccak pr n ks ops : hash32 keccak -> Forall kwf ks -> (forall k, In k ks -> length (nseq k) = n) -> forall t s t1 s1 xs ys,
  like n ks t s -> fits t -> hides keccak t s -> Forall (op_on ks) ops -> merges_visible pr t s ops ->
  trie_ops pr t ops = Ok (t1, xs) -> trie_ops pr s ops = Ok (s1, ys) -> hides keccak t1 s1.
Proof.
  intros H32 Kw Kn. induction ops as [|o ops IH]; intros t s t1 s1 xs ys L Ft H F MV E E'; cbn [trie_ops] in *.
  - congruence.
  - inversion F as [|? ? Fo Fl]; subst. destruct MV as [MV0 MV].
    destruct (trie_op pr t o) as [[t2 x]|] eqn:E1; [|discriminate]. cbn [bind] in E.
    destruct (trie_op pr s o) as [[s2 y]|] eqn:E2; [|discriminate]. cbn [bind] in E'.
    destruct (trie_ops pr t2 ops) as [[t3 xs']|] eqn:E3; [|discriminate]. cbn [bind] in E. injection E as <- <-.
    destruct (trie_ops pr s2 ops) as [[s3 ys']|] eqn:E4; [|discriminate]. cbn [bind] in E'. injection E' as <- <-.
    destruct (like_op n ks Kw Kn pr t s o t2 x L Fo E1) as (s2' & E2' & L2). assert (s2' = s2) by congruence. subst s2'.
    assert (Ft2 : fits t2).
    { apply (ops_fits pr [o] t t2 [x] Ft); [constructor; [exact (op_value_ok ks o Fo)|constructor]|]. cbn [trie_ops]. rewrite E1. reflexivity. }
    apply (IH t2 s2 t3 s3 xs' ys' L2 Ft2); auto; [|exact (MV t2 x s2 y eq_refl eq_refl)].
    pose proof L as ((W & C & _) & (W' & _) & _). rewrite Forall_forall in Kw.
    destruct o as [k v|l|k|k]; cbn [trie_op op_on] in *.
    + destruct (trie_insert pr t k (Val v)) as [t0|] eqn:Et; [|discriminate]. destruct (trie_insert pr s k (Val v)) as [s0|] eqn:Es; [|discriminate]. cbn [bind] in *.
      assert (t0 = t2) by congruence. assert (s0 = s2) by congruence. subst.
      destruct (kwf_ex k (Kw k (proj1 Fo))) as (q & Eq & _ & Hq & Lq). rewrite Eq in Et, Es.
      destruct (hides_insert keccak pr t 64 s q (Val v) s2 H W (le_n _) Hq Lq Es) as (r & Er & Hr).
      change (trie_insert pr t (enc q) (Val v) = Ok r) in Er. congruence.
    + destruct (trie_extend pr t _) as [t0|] eqn:Et; [|discriminate]. destruct (trie_extend pr s _) as [s0|] eqn:Es; [|discriminate]. cbn [bind] in *.
      assert (t0 = t2) by congruence. assert (s0 = s2) by congruence. subst.
      assert (Fk : Forall (fun e : nibbles * val_or_hash => kwf (fst e)) (map (fun e => (fst e, Val (snd e))) l)).
      { rewrite Forall_map. eapply Forall_impl; [|exact Fo]. intros e [I _]. exact (Kw _ I). }
      destruct (hides_extend keccak pr _ t s s2 H W Fk Es) as (r & Er & Hr). congruence.
    + destruct (trie_delete pr t k) as [[t0 w]|] eqn:Et; [|discriminate]. destruct (trie_delete pr s k) as [[s0 u]|] eqn:Es; [|discriminate]. cbn [bind] in *.
      assert (t0 = t2) by congruence. assert (s0 = s2) by congruence. subst.
      destruct (C28_delete_partial keccak pr t s k s2 u H32 W (canon_shape _ C) Ft H (Kw k Fo) MV0 Es) as (r & Er & Hr & _). congruence.
    + destruct (trie_get pr t k); [|discriminate]. destruct (trie_get pr s k); [|discriminate]. cbn [bind] in *. congruence.
Qed.

Lemma no_delete_visible pr ops : forall t s, Forall not_delete ops -> merges_visible pr t s ops.
Proof.
  induction ops as [|o ops IH]; intros t s F; cbn [merges_visible]; [exact I|]. inversion F as [|? ? Fo Fl]; subst.
  split; [destruct o; try exact I; destruct Fo|]. intros. apply IH, Fl.
Qed.

Lemma like_roots keccak pr n ks t s ops s1 ys : hash32 keccak -> Forall kwf ks -> (forall k, In k ks -> length (nseq k) = n) ->
  like n ks t s -> fits t -> hides keccak t s -> Forall (op_on ks) ops -> merges_visible pr t s ops -> trie_ops pr s ops = Ok (s1, ys) ->
  exists t1, trie_ops pr t ops = Ok (t1, ys) /\ hides keccak t1 s1 /\ hash_trie keccak pr s1 = hash_trie keccak pr t1.
Proof.
  intros H32 Kw Kn L Ft H F MV E. destruct (like_ops n ks Kw Kn pr ops s t s1 ys (like_sym n ks t s L) F E) as (t1 & E1 & (_ & (W1 & _) & _)).
  exists t1. split; [exact E1|]. pose proof (hides_ops keccak pr n ks ops H32 Kw Kn t s t1 s1 ys ys L Ft H F MV E1 E) as H1.
  split; [exact H1|]. apply C20_hiding_keeps_root; auto. apply (ops_fits pr ops t t1 ys Ft); [|exact E1].
  eapply Forall_impl; [|exact F]. intros o. apply op_value_ok.
Qed.

(** After any history without deletes the root hash of the subset is that of the full trie. *)
Theorem C42_roots : forall keccak pr n t ks s ops s1 xs,
  hash32 keccak -> fixed_trie n t -> fits t -> Forall kwf ks -> (forall k, In k ks -> length (nseq k) = n) ->
  create_trie_subset keccak pr t ks = Ok (ROk s) -> Forall (op_on ks) ops -> Forall not_delete ops ->
  trie_ops pr s ops = Ok (s1, xs) ->
  exists t1, trie_ops pr t ops = Ok (t1, xs) /\ hash_trie keccak pr s1 = hash_trie keccak pr t1.
Proof.
  intros keccak pr n t ks s ops s1 xs H32 Fx Ft Kw Kn E F ND E1. pose proof (subset_like keccak pr n t ks s H32 Fx Ft Kw Kn E) as L.
  destruct (like_roots keccak pr n ks t s ops s1 xs H32 Kw Kn L Ft (subset_hides keccak pr t ks s H32 (proj1 Fx) Ft E) F (no_delete_visible pr ops t s ND) E1) as (t1 & Et & _ & R).
  exists t1. split; assumption.
Qed.

(** With deletes, as long as none of them merges a branch with a hidden leaf or extension (C28). *)
Theorem C42_roots_deletes : forall keccak pr n t ks s ops s1 xs,
  hash32 keccak -> fixed_trie n t -> fits t -> Forall kwf ks -> (forall k, In k ks -> length (nseq k) = n) ->
  create_trie_subset keccak pr t ks = Ok (ROk s) -> Forall (op_on ks) ops -> merges_visible pr t s ops ->
  trie_ops pr s ops = Ok (s1, xs) ->
  exists t1, trie_ops pr t ops = Ok (t1, xs) /\ hash_trie keccak pr s1 = hash_trie keccak pr t1.
Proof.
  intros keccak pr n t ks s ops s1 xs H32 Fx Ft Kw Kn E F MV E1. pose proof (subset_like keccak pr n t ks s H32 Fx Ft Kw Kn E) as L.
  destruct (like_roots keccak pr n ks t s ops s1 xs H32 Kw Kn L Ft (subset_hides keccak pr t ks s H32 (proj1 Fx) Ft E) F MV E1) as (t1 & Et & _ & R).
  exists t1. split; assumption.
Qed.

(** ** From the beginning *)
Lemma spec_ops_app a : forall m b, fst (spec_ops m (a ++ b)) = fst (spec_ops (fst (spec_ops m a)) b).
Proof.
  induction a as [|o a IH]; intros m b; cbn [app spec_ops]; [reflexivity|]. destruct (spec_op m o) as [m1 x]. specialize (IH m1 b).
  destruct (spec_ops m1 (a ++ b)), (spec_ops m1 a). exact IH.
Qed.

(** Build a trie by any history over keys of [n] nibbles, take the subset for some keys of [n] nibbles, go on with any history
    on those keys: nothing panics, every output is that of one plain map, and without deletes in the second part the final
    root hash is the Yellow Paper root of that map. *)
Theorem C42_history : forall keccak pr n ops0 ks,
  hash32 keccak -> Forall (op_fixed n) ops0 -> Forall op_bytes ops0 -> Forall kwf ks -> (forall k, In k ks -> count k = n) ->
  exists t s, trie_ops pr Empty ops0 = Ok (t, snd (spec_ops kv_empty ops0)) /\ create_trie_subset keccak pr t ks = Ok (ROk s) /\
  forall ops, Forall (op_on ks) ops ->
    exists s1, trie_ops pr s ops = Ok (s1, snd (spec_ops (fst (spec_ops kv_empty ops0)) ops)) /\
      (Forall not_delete ops -> forall J, lists_map J (fst (spec_ops kv_empty (ops0 ++ ops))) -> hash_trie keccak pr s1 = Ok (yp_root keccak J)).
Proof.
  intros keccak pr n ops0 ks H32 F0 B0 Kw Kn. set (m := fst (spec_ops kv_empty ops0)).
  assert (Kn' : forall k, In k ks -> length (nseq k) = N.to_nat n) by (intros k I; rewrite length_nseq, (Kn k I); reflexivity).
  destruct (inv_ops pr (fun k => length k = N.to_nat n) ops0 Empty kv_empty (fixed_pf n) (inv_empty _)) as (t & E & Iv).
  { eapply Forall_impl; [|exact F0]. intros o. apply fixed_ok. }
  fold m in Iv. pose proof Iv as (W & C & Ho & HU).
  assert (Fx : fixed_trie (N.to_nat n) t).
  { split; [exact W|]. split; [exact C|]. split; intros k v Q; rewrite Ho in Q; destruct (m k) eqn:Em; try discriminate. apply HU. congruence. }
  assert (Ft : fits t) by (apply (ops_fits pr ops0 Empty t (snd (spec_ops kv_empty ops0))); [exact I|exact B0|exact E]).
  assert (NH : forall k p h, lk t p = Some (HashV h) -> ~ strict_prefix p k).
  { intros k p h Q. rewrite Ho in Q. destruct (m p); discriminate. }
  assert (Es : exists s, create_trie_subset keccak pr t ks = Ok (ROk s)).
  { destruct (C25_errors_partial keccak pr t ks H32 W Ft Kw) as [[(k & I & p & h & Ep & P) _]|[_ Q]]; [|exfalso; exact (NH _ p h Ep P)|exact Q].
    right. intros k I S. destruct (fixed_not_short t 64 (nseq k) (canon_shape _ C) W S) as (j & Sj & Lj).
    apply (fixed_stored _ t j Fx) in Sj. rewrite (Kn' k I) in Lj. lia. }
  destruct Es as [s Es]. exists t, s. split; [exact E|]. split; [exact Es|]. intros ops F.
  assert (Fo : Forall (op_fixed n) ops).
  { eapply Forall_impl; [|exact F]. rewrite Forall_forall in Kw. intros [k v|l|k|k]; cbn [op_on op_fixed].
    - intros (I & A & _). auto.
    - apply Forall_impl. intros e (I & A & _). auto.
    - auto.
    - auto. }
  destruct (inv_ops pr (fun k => length k = N.to_nat n) ops t m (fixed_pf n) Iv) as (t1 & E1 & Iv1).
  { eapply Forall_impl; [|exact Fo]. intros o. apply fixed_ok. }
  destruct (proj1 (C42_outputs keccak pr (N.to_nat n) t ks s ops _ H32 Fx Ft Kw Kn' Es F) (ex_intro _ t1 E1)) as [s1 Es1].
  exists s1. split; [exact Es1|]. intros ND J HJ.
  destruct (C42_roots keccak pr (N.to_nat n) t ks s ops s1 _ H32 Fx Ft Kw Kn' Es F ND Es1) as (t2 & E2 & R). rewrite R.
  assert (t2 = t1) by congruence. subst t2. destruct Iv1 as (W1 & C1 & Ho1 & _). apply C19_canonical; auto.
  - apply (ops_fits pr ops t t1 _ Ft) in E1; [exact E1|]. eapply Forall_impl; [|exact F]. intros o. apply op_value_ok.
  - eapply lists_holds; [exact HJ|]. intros j. rewrite Ho1. rewrite spec_ops_app. reflexivity.
Qed.

Definition ex_keys : list nibbles := [K 4 0x5678; K 4 0x5699; K 4 0x5111].
Definition ex_replay : list op := [OGet (K 4 0x5678); OInsert (K 4 0x5111) [7]; ODelete (K 4 0x5678); OGet (K 4 0x5678); OExtend [(K 4 0x5699, [8])]].
Lemma ex_big_fixed : fixed_trie 4 ex_big.
Proof.
  destruct ex_big_ok as (_ & W & C & _). split; [exact W|]. split; [exact C|].
  assert (A : forall k e, lk ex_big k = Some e -> length k = 4%nat /\ exists v, e = Val v).
  { intros k e E. apply entries_lk in E. revert E.
    change (entries ex_big) with [([1;2;3;4], Val (big 1)); ([5;6;7;8], Val (big 2)); ([5;6;9;9], Val (big 3))].
    intros [[= <- <-]|[[= <- <-]|[[= <- <-]|[]]]]; eauto. }
  split; intros k v E; destruct (A _ _ E) as [L [w Q]]; [exact L|lia].
Qed.
Example C42_example : fixed_trie 4 ex_big /\ fits ex_big /\ Forall kwf ex_keys /\ (forall k, In k ex_keys -> length (nseq k) = 4%nat) /\
  Forall (op_on ex_keys) ex_replay /\
  exists s, create_trie_subset keccak256 Debug ex_big ex_keys = Ok (ROk s) /\ s <> ex_big /\ merges_visible Debug ex_big s ex_replay /\
  exists s1, trie_ops Debug s ex_replay = Ok (s1, [OValue (Some (big 2)); ODone; OValue (Some (big 2)); OValue None; ODone]).
Proof.
  split; [exact ex_big_fixed|]. split; [apply ex_big_ok|]. split; [repeat constructor; vm_compute; (reflexivity || (intro; discriminate))|].
  split; [intros k [<-|[<-|[<-|[]]]]; reflexivity|].
  assert (V : forall b, b < 256 -> value_ok [b]) by (intros b Hb; split; [discriminate|]; split; [repeat constructor; exact Hb|reflexivity]).
  split.
  { unfold ex_replay. repeat (apply Forall_cons; [cbn [op_on]|]); try apply Forall_nil; try (apply Forall_cons; [|apply Forall_nil]); cbn [fst snd ex_keys In];
      repeat match goal with |- _ /\ _ => split | |- value_ok _ => apply V; reflexivity end; auto. }
  exists (oks (create_trie_subset keccak256 Debug ex_big ex_keys)). split; [vm_compute; reflexivity|]. split; [vm_compute; discriminate|].
  assert (MV : forall s t2 s2, trie_ops Debug ex_big (firstn 2 ex_replay) = Ok (t2, [OValue (Some (big 2)); ODone]) ->
    trie_ops Debug s (firstn 2 ex_replay) = Ok (s2, [OValue (Some (big 2)); ODone]) -> merge_visible t2 s2 [5;6;7;8] -> merges_visible Debug ex_big s ex_replay).
  { intros s t2 s2 E E' M. cbn [ex_replay firstn trie_ops] in *.
    destruct (trie_op Debug ex_big _) as [[t1 x]|] eqn:E1; [|discriminate]. cbn [bind] in E.
    destruct (trie_op Debug t1 _) as [[t1' x']|] eqn:E2; [|discriminate]. cbn [bind] in E. injection E as -> -> ->.
    destruct (trie_op Debug s _) as [[s1 y]|] eqn:E3; [|discriminate]. cbn [bind] in E'.
    destruct (trie_op Debug s1 _) as [[s1' y']|] eqn:E4; [|discriminate]. cbn [bind] in E'. injection E' as -> -> ->.
    cbn [merges_visible]. split; [exact I|]. intros a b c d A B. rewrite E1 in A. rewrite E3 in B. injection A as <- <-. injection B as <- <-.
    split; [exact I|]. intros a b c d A B. rewrite E2 in A. rewrite E4 in B. injection A as <- <-. injection B as <- <-.
    split; [exact M|]. intros. repeat (split; [exact I|intros]). exact I. }
  split.
  - eapply MV; [vm_compute; reflexivity|vm_compute; reflexivity|]. vm_compute. split; [|intros _; exact I]. split; [|intros _; exact I]. split; [exact I|]. intros _ _ i Hi. do 17 (destruct i as [|i]; [exact I|]). exact I.
  - eexists. vm_compute. reflexivity.
Qed.

Definition ex_ops0 : list op := [OInsert (K 4 0x1234) (big 1); OInsert (K 4 0x5678) (big 2); OInsert (K 4 0x5699) (big 3)].
Example C42_history_example : Forall (op_fixed 4) ex_ops0 /\ Forall op_bytes ex_ops0 /\ (forall k, In k ex_keys -> count k = 4) /\
  Forall (op_on ex_keys) [OGet (K 4 0x5678); OInsert (K 4 0x5111) (big 4)] /\
  trie_ops Debug Empty ex_ops0 = Ok (ex_big, [ODone; ODone; ODone]).
Proof.
  split; [repeat constructor; cbn; try (vm_compute; (reflexivity || (intro; discriminate)))|].
  split; [repeat constructor|]. split; [intros k [<-|[<-|[<-|[]]]]; reflexivity|]. split; [|vm_compute; reflexivity].
  apply Forall_cons; [left; reflexivity|]. apply Forall_cons; [|apply Forall_nil]. split; [right; right; left; reflexivity|].
  split; [discriminate|]. split; [repeat constructor|reflexivity].
Qed.

Print Assumptions C42_outputs.
Print Assumptions C42_batch_outputs.
Print Assumptions C42_roots.
Print Assumptions C42_roots_deletes.
Print Assumptions C42_history.
