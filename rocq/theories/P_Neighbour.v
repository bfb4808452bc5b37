(** Property C65: requesting a neighbour of every key to be deleted makes deletes on a subset give the right root hash. *)
From Verif Require Import Base Nibbles NibblesSpec NibblesFacts NibblesFacts2 NibblesFacts3 Trie TrieSpec TrieHistSpec TrieFacts TrieInsert TrieGet TrieDelete TrieUnique TrieIter TrieHist TrieObs InsertWf YellowPaper Hashing Keccak HashSpec HideSpec HashFacts KeccakFacts HideFacts HideDelete Subset SubsetSpec SubsetFacts SubsetFacts2 P_Trie P_Hash P_Subset ReplaySpec ReplayFacts P_Replay NeighbourSpec NeighbourFacts.
Open Scope N_scope.

Lemma held_visible keccak n ks t s k : Forall kwf ks -> (forall k, In k ks -> length (nseq k) = n) -> like n ks t s -> hides keccak t s ->
  In k ks -> held_neighbour t ks (nseq k) -> merge_visible t s (nseq k).
Proof.
  intros Kw Kn ((W & C & _) & (Ws & _) & A) H I Hn. destruct (lk t (nseq k)) as [[v|h]|] eqn:E.
  - destruct Hn as [N|[U|(k' & v' & I' & E' & (_ & NE & Max))]]; [destruct (N v E)|exact (only_visible t 64 s _ v W C E U)|].
    apply (neighbour_visible keccak t 64 s (nseq k) (nseq k') v v'); auto; [rewrite !Kn by assumption; reflexivity|].
    intros HP. apply (A k' I') in HP. exact (hop_no_val t 64 _ v' W HP E').
  - apply (absent_visible keccak t 64); auto; [congruence|apply canon_shape, C|apply nseq_hexl].
  - apply (absent_visible keccak t 64); auto; [congruence|apply canon_shape, C|apply nseq_hexl].
Qed.

Lemma held_merges keccak pr n ks ops : hash32 keccak -> Forall kwf ks -> (forall k, In k ks -> length (nseq k) = n) -> forall t s,
  like n ks t s -> fits t -> hides keccak t s -> Forall (op_on ks) ops -> neighbours_held pr t ks ops -> merges_visible pr t s ops.
Proof.
  intros H32 Kw Kn. induction ops as [|o ops IH]; intros t s L Ft H F NB; [exact I|]. inversion F as [|? ? Fo Fl]; subst. destruct NB as [N0 N1].
  assert (M0 : match o with ODelete k => merge_visible t s (nseq k) | _ => True end).
  { destruct o; try exact I. cbn [op_on] in Fo. exact (held_visible keccak n ks t s k Kw Kn L H Fo N0). }
  split; [exact M0|]. intros t1 x s1 y E E'.
  destruct (like_op n ks Kw Kn pr t s o t1 x L Fo E) as (s1' & E1 & L1). assert (s1' = s1) by congruence. subst s1'.
  assert (Es : forall t r x, trie_op pr t o = Ok (r, x) -> trie_ops pr t [o] = Ok (r, [x])) by (intros a b c Q; cbn [trie_ops]; rewrite Q; reflexivity).
  apply IH; auto.
  - apply (ops_fits pr [o] t t1 [x] Ft); [constructor; [exact (op_value_ok ks o Fo)|constructor]|]. apply Es, E.
  - apply (hides_ops keccak pr n ks [o] H32 Kw Kn t s t1 s1 [x] [y]); auto. split; [exact M0|]. intros. exact I.
  - exact (N1 t1 x E).
Qed.

(** Replaying any history on a subset, with deletes: if every deleted key has a neighbour with a value among the requested keys at the time (or is the only
    key, or has no value) the final root hash is that of the full trie. The full trie may contain hash nodes. *)
Theorem C65_replay : forall keccak pr n t ks s ops s1 xs,
  hash32 keccak -> fixed_trie n t -> fits t -> Forall kwf ks -> (forall k, In k ks -> length (nseq k) = n) ->
  create_trie_subset keccak pr t ks = Ok (ROk s) -> Forall (op_on ks) ops -> neighbours_held pr t ks ops ->
  trie_ops pr s ops = Ok (s1, xs) ->
  exists t1, trie_ops pr t ops = Ok (t1, xs) /\ hash_trie keccak pr s1 = hash_trie keccak pr t1.
Proof.
  intros keccak pr n t ks s ops s1 xs H32 Fx Ft Kw Kn E F NB E1. pose proof (subset_like keccak pr n t ks s H32 Fx Ft Kw Kn E) as L.
  pose proof (subset_hides keccak pr t ks s H32 (proj1 Fx) Ft E) as H.
  destruct (like_roots keccak pr n ks t s ops s1 xs H32 Kw Kn L Ft H F (held_merges keccak pr n ks ops H32 Kw Kn t s L Ft H F NB) E1) as (t1 & Et & _ & R).
  exists t1. split; assumption.
Qed.
(** One deletion. *)
Theorem C65_delete : forall keccak pr n t ks s k,
  hash32 keccak -> fixed_trie n t -> fits t -> Forall kwf ks -> (forall k, In k ks -> length (nseq k) = n) ->
  create_trie_subset keccak pr t ks = Ok (ROk s) -> In k ks -> held_neighbour t ks (nseq k) ->
  (trie_delete pr s k = Panic <-> trie_delete pr t k = Panic) /\
  forall s1 w, trie_delete pr s k = Ok (s1, w) -> exists t1, trie_delete pr t k = Ok (t1, w) /\ hash_trie keccak pr s1 = hash_trie keccak pr t1.
Proof.
  intros keccak pr n t ks s k H32 Fx Ft Kw Kn E I Hn.
  assert (F : Forall (op_on ks) [ODelete k]) by (constructor; [exact I|constructor]).
  assert (One : forall t r w, trie_delete pr t k = Ok (r, w) <-> trie_ops pr t [ODelete k] = Ok (r, [OValue w])).
  { intros a r w. cbn [trie_ops trie_op]. destruct (trie_delete pr a k) as [[b u]|]; cbn [bind]; split; intros Q; congruence. }
  assert (Sh : forall t r xs, trie_ops pr t [ODelete k] = Ok (r, xs) -> exists w, xs = [OValue w]).
  { intros a r xs. cbn [trie_ops trie_op]. destruct (trie_delete pr a k) as [[b u]|]; cbn [bind]; intros Q; [|discriminate]. injection Q as <- <-. eauto. }
  split.
  - split; intros P.
    + destruct (trie_delete pr t k) as [[t1 w]|] eqn:Et; [|reflexivity]. apply One in Et.
      destruct (proj1 (C42_outputs keccak pr n t ks s [ODelete k] _ H32 Fx Ft Kw Kn E F) (ex_intro _ t1 Et)) as [s1 Es]. apply One in Es. congruence.
    + destruct (trie_delete pr s k) as [[s1 w]|] eqn:Es; [|reflexivity]. apply One in Es.
      destruct (proj2 (C42_outputs keccak pr n t ks s [ODelete k] _ H32 Fx Ft Kw Kn E F) (ex_intro _ s1 Es)) as [t1 Et]. apply One in Et. congruence.
  - intros s1 w Es. apply One in Es.
    destruct (C65_replay keccak pr n t ks s [ODelete k] s1 [OValue w] H32 Fx Ft Kw Kn E F) as (t1 & Et & R); [split; [exact Hn|intros; exact Logic.I]|exact Es|].
    exists t1. split; [apply One, Et|exact R].
Qed.
(** The same for each subset of a batch. *)
Theorem C65_batch : forall keccak pr n t kss l,
  hash32 keccak -> fixed_trie n t -> fits t -> Forall (Forall kwf) kss -> (forall ks k, In ks kss -> In k ks -> length (nseq k) = n) ->
  create_trie_subsets keccak pr t kss = Ok (ROk l) ->
  Forall2 (fun ks s => forall ops s1 xs, Forall (op_on ks) ops -> neighbours_held pr t ks ops -> trie_ops pr s ops = Ok (s1, xs) ->
     exists t1, trie_ops pr t ops = Ok (t1, xs) /\ hash_trie keccak pr s1 = hash_trie keccak pr t1) kss l.
Proof.
  intros keccak pr n t kss l H32 Fx Ft Kw Kn E. pose proof (subsets_like keccak pr n t kss l H32 Fx Ft Kw Kn E) as A. clear E.
  induction A as [|ks s kss l (L & H) A IH]; constructor.
  - intros ops s1 xs F NB E1. inversion Kw; subst. assert (Kn' : forall k, In k ks -> length (nseq k) = n) by (intros k I; exact (Kn ks k (or_introl eq_refl) I)).
    destruct (like_roots keccak pr n ks t s ops s1 xs H32 ltac:(assumption) Kn' L Ft H F (held_merges keccak pr n ks ops H32 ltac:(assumption) Kn' t s L Ft H F NB) E1) as (t1 & Et & _ & R).
    exists t1. split; assumption.
  - inversion Kw; subst. apply IH; [assumption|]. intros ks' k I J. exact (Kn ks' k (or_intror I) J).
Qed.

(** ** From the beginning *)
Lemma requested_held pr n ks ops : Forall kwf ks -> (forall k, In k ks -> count k = n) -> forall t m, inv (fun k => length k = N.to_nat n) t m ->
  Forall (op_on ks) ops -> neighbours_requested m ks ops -> neighbours_held pr t ks ops.
Proof.
  intros Kw Kn. induction ops as [|o ops IH]; intros t m Iv F NB; [exact I|]. inversion F as [|? ? Fo Fl]; subst. destruct NB as [N0 N1]. split.
  - destruct o as [| |k|]; try exact I. pose proof Iv as (W & C & Ho & HU). destruct N0 as [N0|[N0|(k' & I' & S' & NE & Max)]].
    + left. intros v E. apply N0. rewrite Ho in E. destruct (m (nseq k)); discriminate.
    + right. left. intros j Sj. apply N0. apply (holds_stored t m j Ho), Sj.
    + right. right. destruct (m (nseq k')) as [v|] eqn:Em; [|congruence]. exists k', v. split; [exact I'|]. split; [rewrite Ho, Em; reflexivity|].
      split; [apply (holds_stored t m _ Ho); congruence|]. split; [exact NE|]. intros j Sj. apply Max. apply (holds_stored t m j Ho), Sj.
  - intros t1 x E.
    assert (Fo' : op_fixed n o).
    { rewrite Forall_forall in Kw. destruct o as [k v|l|k|k]; cbn [op_on op_fixed] in *.
      - destruct Fo as (A & B & _). auto.
      - eapply Forall_impl; [|exact Fo]. intros e (A & B & _). auto.
      - auto.
      - auto. }
    destruct (inv_op pr (fun k => length k = N.to_nat n) t m o (fixed_pf n) Iv (fixed_ok n o Fo')) as (t1' & E1 & I1).
    rewrite E in E1. injection E1 as <- _. apply (IH t1 _ I1 Fl N1).
Qed.
(** Build a trie by any history over keys of [n] nibbles, take the subset for some keys of [n] nibbles, go on with any history on those keys: nothing panics,
    every output is that of one plain map, and if every deleted key has a neighbour in the map among the requested keys then the final root hash is the
    Yellow Paper root of that map. *)
Theorem C65_history : forall keccak pr n ops0 ks,
  hash32 keccak -> Forall (op_fixed n) ops0 -> Forall op_bytes ops0 -> Forall kwf ks -> (forall k, In k ks -> count k = n) ->
  exists t s, trie_ops pr Empty ops0 = Ok (t, snd (spec_ops kv_empty ops0)) /\ create_trie_subset keccak pr t ks = Ok (ROk s) /\
  forall ops, Forall (op_on ks) ops -> neighbours_requested (fst (spec_ops kv_empty ops0)) ks ops ->
    exists s1, trie_ops pr s ops = Ok (s1, snd (spec_ops (fst (spec_ops kv_empty ops0)) ops)) /\
      forall J, lists_map J (fst (spec_ops kv_empty (ops0 ++ ops))) -> hash_trie keccak pr s1 = Ok (yp_root keccak J).
Proof.
  intros keccak pr n ops0 ks H32 F0 B0 Kw Kn. set (m := fst (spec_ops kv_empty ops0)).
  destruct (C42_history keccak pr n ops0 ks H32 F0 B0 Kw Kn) as (t & s & E & Es & G). fold m in G. exists t, s. split; [exact E|]. split; [exact Es|]. intros ops F NB.
  destruct (G ops F) as (s1 & E1 & _). exists s1. split; [exact E1|]. intros J HJ.
  assert (Kn' : forall k, In k ks -> length (nseq k) = N.to_nat n) by (intros k I; rewrite length_nseq, (Kn k I); reflexivity).
  destruct (inv_ops pr (fun k => length k = N.to_nat n) ops0 Empty kv_empty (fixed_pf n) (inv_empty _)) as (t' & E' & Iv).
  { eapply Forall_impl; [|exact F0]. intros o. apply fixed_ok. }
  assert (t' = t) by congruence. subst t'. fold m in Iv. pose proof Iv as (W & C & Ho & HU).
  assert (Fx : fixed_trie (N.to_nat n) t).
  { split; [exact W|]. split; [exact C|]. split; intros k v Q; rewrite Ho in Q; destruct (m k) eqn:Em; try discriminate. apply HU. congruence. }
  assert (Ft : fits t) by (apply (ops_fits pr ops0 Empty t (snd (spec_ops kv_empty ops0))); [exact I|exact B0|exact E]).
  destruct (C65_replay keccak pr (N.to_nat n) t ks s ops s1 _ H32 Fx Ft Kw Kn' Es F (requested_held pr n ks ops Kw Kn t m Iv F NB) E1) as (t2 & E2 & R). rewrite R.
  assert (Fo : Forall (op_fixed n) ops).
  { eapply Forall_impl; [|exact F]. rewrite Forall_forall in Kw. intros [k v|l|k|k]; cbn [op_on op_fixed].
    - intros (I & A & _). auto.
    - apply Forall_impl. intros e (I & A & _). auto.
    - auto.
    - auto. }
  destruct (inv_ops pr (fun k => length k = N.to_nat n) ops t m (fixed_pf n) Iv) as (t1 & Et & (W1 & C1 & Ho1 & _)).
  { eapply Forall_impl; [|exact Fo]. intros o. apply fixed_ok. }
  assert (t2 = t1) by congruence. subst t2. apply C19_canonical; auto.
  - apply (ops_fits pr ops t t1 _ Ft) in Et; [exact Et|]. eapply Forall_impl; [|exact F]. intros o. apply op_value_ok.
  - eapply lists_holds; [exact HJ|]. intros j. rewrite Ho1. rewrite spec_ops_app. reflexivity.
Qed.
(** Without the neighbour this fails: of three stored keys the subset is taken for one, which is then deleted from it and from the trie. *)
Theorem C65_neighbour_needed : forall pr, exists t k s s1 t1 w,
  fixed_trie 4 t /\ fits t /\ kwf k /\ length (nseq k) = 4%nat /\ create_trie_subset keccak256 pr t [k] = Ok (ROk s) /\
  trie_delete pr s k = Ok (s1, Some w) /\ trie_delete pr t k = Ok (t1, Some w) /\ hash_trie keccak256 pr s1 <> hash_trie keccak256 pr t1.
Proof.
  intros pr. set (k := K 4 0x5678). set (s := oks (create_trie_subset keccak256 pr ex_big [k])).
  exists ex_big, k, s, (okd (trie_delete pr s k)), (okd (trie_delete pr ex_big k)), (big 2).
  split; [exact ex_big_fixed|]. split; [apply ex_big_ok|]. split; [split; vm_compute; (reflexivity || (intro; discriminate))|]. split; [reflexivity|].
  split; [destruct pr; vm_compute; reflexivity|]. split; [destruct pr; vm_compute; reflexivity|]. split; [destruct pr; vm_compute; reflexivity|].
  destruct pr; vm_compute; discriminate.
Qed.
(** The subset taken for the key and its neighbour is a proper part of the trie, deleting on it succeeds and the key next to it is a neighbour; and a history
    that deletes, inserts again elsewhere and deletes once more. *)
Definition ex_pair : list nibbles := [K 4 0x5678; K 4 0x5699].
Definition ex_deletes : list op := [ODelete (K 4 0x5678); OInsert (K 4 0x5678) (big 4); OGet (K 4 0x5699); ODelete (K 4 0x5699)].
Lemma kv_set_some m k v j : kv_set m k v j <> None <-> (j = k /\ v <> None) \/ (j <> k /\ m j <> None).
Proof. unfold kv_set. destruct (key_eqb_spec k j); subst; intuition congruence. Qed.
Example C65_example : Forall (op_fixed 4) ex_ops0 /\ Forall op_bytes ex_ops0 /\ Forall kwf ex_pair /\ (forall k, In k ex_pair -> count k = 4) /\
  Forall (op_on ex_pair) ex_deletes /\ neighbours_requested (fst (spec_ops kv_empty ex_ops0)) ex_pair ex_deletes /\
  oks (create_trie_subset keccak256 Debug ex_big ex_pair) <> ex_big.
Proof.
  split; [repeat constructor; cbn; try (vm_compute; (reflexivity || (intro; discriminate)))|].
  split; [repeat constructor|]. split; [repeat constructor; vm_compute; (reflexivity || (intro; discriminate))|]. split; [intros k [<-|[<-|[]]]; reflexivity|]. split.
  { unfold ex_deletes. repeat (apply Forall_cons; [cbn [op_on]|]); try apply Forall_nil; cbn [ex_pair In]; auto.
    split; [auto|]. split; [discriminate|]. split; [repeat constructor|reflexivity]. }
  split; [|vm_compute; discriminate].
  unfold ex_ops0, ex_deletes. cbn [spec_ops spec_op fst neighbours_requested].
  change (nseq (K 4 0x1234)) with [1;2;3;4]. change (nseq (K 4 0x5678)) with [5;6;7;8]. change (nseq (K 4 0x5699)) with [5;6;9;9].
  repeat match goal with |- _ /\ _ => split | |- True => exact I end; right; right.
  - exists (K 4 0x5699). split; [right; left; reflexivity|]. split; [vm_compute; discriminate|]. split; [discriminate|].
    intros j. rewrite !kv_set_some. intros [[-> _]|[_ [[-> _]|[_ [[-> _]|[_ B]]]]]] Nj; try (apply Nat.leb_le; vm_compute; reflexivity); unfold kv_empty in *; congruence.
  - exists (K 4 0x5678). split; [left; reflexivity|]. split; [vm_compute; discriminate|]. split; [discriminate|].
    intros j. rewrite !kv_set_some. intros Hj Nj; repeat (destruct Hj as [[-> ?]|[_ Hj]]); try (apply Nat.leb_le; vm_compute; reflexivity); unfold kv_empty in *; congruence.
Qed.

Print Assumptions C65_replay.
Print Assumptions C65_delete.
Print Assumptions C65_batch.
Print Assumptions C65_history.
Print Assumptions C65_neighbour_needed.
